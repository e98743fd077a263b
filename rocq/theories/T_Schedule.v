(** * Properties C49 and C50: whole runs are the min-sum schedules of their models. *)
From Verif Require Import Num NumFacts Arr ArrFacts Spec SpecRun MinSum.
From Verif Require Import M_InOut P_InOut T_InOut M_Knapsack M_Runs P_Runs P_Schedule P_Ksat_Run P_Kc_Run.
Local Open Scope nat_scope.

(** C49.  The whole call for any number of iterations.  There are message matrices [V t]
    (variable to clause), [D t] (clause to variable, before filtering) and [M t] (filtered),
    starting from the given matrix, such that in every iteration [D t] holds the min-sum messages
    of "the clause is satisfied" for the incoming [V t]; [M t] is the filtered history of [D];
    [V (t + 1)] is metric plus the other clauses' [M t]; and the returned value of a variable is
    the sum over all clauses of the last [M] (0 without iterations).  By uniqueness of min-sum
    messages this determines the result. *)
Theorem C49_ksat_run :
  forall (iters nv nc k : nat) (used : list nat) (metrics : list Qc) (conx : list (list nat))
         (types : list (list Z)) (V0 : list (list Qc)) (varconx : list (list nat))
         (flag : bool) (alpha : Qc),
    2 <= k -> length metrics = nv -> shape nc k conx -> shape nc k types -> shape nc nv V0 ->
    (forall c cx tys, nth_error conx c = Some cx -> nth_error types c = Some tys ->
       clause_wf nv k cx tys) ->
    length varconx = nv -> Forall (fun x => x < nv) used ->
    (forall x l, nth_error varconx x = Some l -> NoDup l /\ Forall (fun c => c < nc) l) ->
    (forall j, j < nv -> ~ In j used -> nth j varconx [] = []) ->
    exists (ext : list Qc) (V D M : nat -> list (list Qc)),
      wrapper_ksat iters nv nc (length used) (Fin alpha) flag used (concat varconx)
        (map (@length nat) varconx) (concat conx) (concat types) (map Fin metrics) (concat (inj V0)) k
      = Some (map Fin ext) /\ length ext = nv /\
      V 0 = V0 /\
      (forall t,
         (forall c cx tys, nth_error conx c = Some cx -> nth_error types c = Some tys ->
            (forall j x, nth_error cx j = Some x ->
               minsum_message (clause_ok (signs tys)) (map (fun x => qat (V t) c x) cx) j
                              (Fin (qat (D t) c x))) /\
            (forall x, x < nv -> ~ In x cx -> qat (D t) c x = 0%Qc)) /\
         (forall c x, c < nc -> x < nv ->
            qat (M t) c x = filtered flag alpha (fun i => qat (D i) c x) t) /\
         (forall x l c, nth_error varconx x = Some l -> In c l ->
            qat (V (t + 1)) c x =
              (nth x metrics 0 + qsum (map (fun c => qat (M t) c x) (others c l)))%Qc) /\
         (forall c x l, c < nc -> nth_error varconx x = Some l -> ~ In c l ->
            qat (V (t + 1)) c x = 0%Qc)) /\
      (forall x, x < nv -> nth x ext 0%Qc =
         if iters =? 0 then 0%Qc else qsum (map (fun c => qat (M (iters - 1)) c x) (seq 0 nc))).
Proof.
  intros iters nv nc k used metrics conx types V0 varconx flag alpha Hk Hm Hc Ht HV Hwf Hv Hu Hin Hun.
  destruct (ksat_run_sem nv nc k flag alpha conx types used metrics varconx (inj V0)) with (iters := iters) (V0 := V0)
    as (st & ext & V & D & M & E & L & E0 & HT & HX); auto.
  { destruct Hc; auto. } { destruct Ht; auto. }
  exists ext, V, D, M. split; [|split; [|split; [|split]]]; auto.
  - unfold wrapper_ksat. rewrite C26_ksat_inputs; auto using P_Tsp_Constraints.shape_inj.
    2:{ rewrite map_length; auto. }
    cbn [bind]. rewrite E. reflexivity.
  - intros t. destruct (HT t) as (A & B & C1 & C2). split; [exact A|]. split; [exact B|]. split.
    + intros x l c G I. apply (C1 x l c); auto.
      destruct (in_dec Nat.eq_dec x used) as [U|U]; auto. exfalso.
      assert (Hx : x < nv) by (rewrite <- Hv; apply nth_error_Some; congruence).
      pose proof (Hun x Hx U) as N. rewrite (nth_error_nth _ _ _ G) in N. subst l. destruct I.
    + intros c x l Hcl G I. apply C2; auto.
      * rewrite <- Hv; apply nth_error_Some; congruence.
      * intros (_ & l' & G' & I'). rewrite G in G'. injection G' as <-. contradiction.
Qed.

(** the instance of [C15_example] with its hypotheses; two iterations, no filtering: first
    clause messages, then the sum of the second clause messages *)
Example C49_example :
  let conx := [[0; 1; 2]; [1; 2; 3]; [2; 3; 0]] in
  let types := [[1; -1; 1]; [-1; -1; 1]; [1; 1; -1]]%Z in
  let varconx := [[0; 2]; [0; 1]; [0; 1; 2]; [1; 2]] in
  let V0 := map (map zq) [[1; -2; 3; 0]; [0; -2; 3; -1]; [1; 0; 3; -1]]%Z in
  shape 3 3 conx /\ shape 3 3 types /\ shape 3 4 V0 /\
  (forall c cx tys, nth_error conx c = Some cx -> nth_error types c = Some tys -> clause_wf 4 3 cx tys) /\
  (forall x l, nth_error varconx x = Some l -> NoDup l /\ Forall (fun c => c < 3) l) /\
  map (fun iters => option_map (map view)
    (wrapper_ksat iters 4 3 4 n0 false [0; 1; 2; 3] (concat varconx)
       (map (@length nat) varconx) (concat conx) (concat types) (map zn [1; -2; 3; -1]%Z)
       (concat (inj V0)) 3)) [0; 1; 2]
  = [Some [VFin 0; VFin 0; VFin 0; VFin 0]; Some [VFin (-2); VFin 1; VFin (-1); VFin 0];
     Some [VFin (-2); VFin 1; VFin (-1); VFin (-1)]].
Proof.
  split; [split; [reflexivity|repeat constructor]|]. split; [split; [reflexivity|repeat constructor]|].
  split; [split; [reflexivity|repeat constructor]|]. split; [|split].
  - intros [|[|[|c]]] cx tys H1 H2; cbn in H1, H2; try (destruct c; discriminate);
      injection H1 as <-; injection H2 as <-; unfold clause_wf, pm1;
      repeat split; auto; repeat constructor; auto; cbn; intuition discriminate.
  - intros [|[|[|[|x]]]] l H; cbn in H; try (destruct x; discriminate); injection H as <-;
      (split; [repeat constructor; cbn; intuition discriminate|repeat constructor]).
  - vm_compute. reflexivity.
Qed.

(** C50.  The whole KC-MWM call for any number of iterations.  There are messages: [K t] team to
    department, [Dm t] department to team, [X t] filtered, [TO t] team to coupling constraint,
    [CE t] coupling constraint to (team, project) pair, [EP t] pair to project constraint, [PE t]
    project constraint to pair, [EO t] pair to coupling constraint, [OT t] coupling constraint to
    team.  Every iteration computes them in this order, each from the newest values, and each
    constraint message is the min-sum message of its constraint ([OT] capped at 1000000). *)
Theorem C50_kc_run :
  forall (iters T D P : nat) (W : list (list nat)) (R : list (list Qc)) (reward : list Qc)
         (caps : list nat) (flag : bool) (alpha : Qc),
    shape D T W -> shape P T R -> length reward = T -> length caps = D ->
    (forall d ws, nth_error W d = Some ws -> exists t w, nth_error ws t = Some w /\ w <> 0) ->
    (forall d ws cap, nth_error W d = Some ws -> nth_error caps d = Some cap ->
       Forall (fun w => w <= cap) ws) ->
    (forall d1 d2 d3 t, d1 < d2 < d3 -> d3 < D ->
       nth t (nth d1 W []) 0 = 0 \/ nth t (nth d2 W []) 0 = 0 \/ nth t (nth d3 W []) 0 = 0) ->
    let nz := py_nonzero W in
    exists (ext intr : list Qc) (K EO Dm X : nat -> list (list Qc)) (TO : nat -> list Qc)
           (CE EP PE : nat -> list (list Qc)) (OT : nat -> list Qc),
      wrapper_kc_mwm iters D T P (concat (py_team_messages W (map Fin reward))) caps
        (map Fin reward) (concat (inj R)) (concat W) (concat (py_pad nz)) (map (@length nat) nz)
        (list_max (map (@length nat) nz)) flag (Fin alpha) = Some (map Fin ext, map Fin intr) /\
      length ext = T /\ length intr = P * T /\
      (* start *)
      (forall d x, d < D -> x < T ->
         qat (K 0) d x = if takes_part W d x then nth x reward 0%Qc else 0%Qc) /\
      (forall p x, qat (EO 0) p x = 0%Qc) /\
      (forall t, shape P T (EP t)) /\
      (* iteration [t] *)
      (forall t,
         (forall d ws cap, nth_error W d = Some ws -> nth_error caps d = Some cap ->
            (forall i x, nth_error (participants T ws) i = Some x ->
               minsum_message (within (map (fun x => nth x ws 0) (participants T ws)) cap)
                 (map (fun x => qat (K t) d x) (participants T ws)) i (Fin (qat (Dm t) d x))) /\
            (forall x, x < T -> takes_part W d x = false -> qat (Dm t) d x = 0%Qc)) /\
         (forall d x, d < D -> x < T ->
            qat (X t) d x = filtered flag alpha (fun i => qat (Dm i) d x) t) /\
         (forall x, x < T ->
            nth x (TO t) 0%Qc = (nth x reward 0 + qsum (map (fun d => qat (X t) d x) (seq 0 D)))%Qc) /\
         (forall p x, p < P -> x < T ->
            minsum_message coupled (nth x (TO t) 0%Qc :: col (EO t) P x) (S p) (Fin (qat (CE t) p x)) /\
            qat (EP t) p x = (qat (CE t) p x + qat R p x)%Qc /\
            minsum_message at_most_one (nth p (EP t) []) x (Fin (qat (PE t) p x)) /\
            qat (EO (t + 1)) p x = (qat (PE t) p x + qat R p x)%Qc) /\
         (forall x, x < T -> exists v,
            minsum_message coupled (nth x (TO t) 0%Qc :: col (EO (t + 1)) P x) 0 v /\
            Fin (nth x (OT t) 0%Qc) = nmin (zn 1000000) v) /\
         (forall d x, d < D -> x < T -> qat (K (t + 1)) d x =
            if takes_part W d x then
              (nth x reward 0 + nth x (OT t) 0 +
               qsum (map (fun d' => qat (X t) d' x)
                      (filter (fun d' => takes_part W d' x) (others d (seq 0 D)))))%Qc
            else 0%Qc)) /\
      (* result *)
      (forall x, x < T -> nth x ext 0%Qc = if iters =? 0 then 0%Qc else
         (nth x (OT (iters - 1)%nat) 0 + qsum (map (fun d => qat (X (iters - 1)%nat) d x) (seq 0 D)))%Qc) /\
      (forall p x, p < P -> x < T -> nth (p * T + x) intr 0%Qc = if iters =? 0 then 0%Qc else
         (qat (CE (iters - 1)%nat) p x + qat (PE (iters - 1)%nat) p x + qat R p x)%Qc).
Proof.
  intros iters T D P W R reward caps flag alpha HW HR Hr Hc Hp Hfit Htwo nz.
  unfold wrapper_kc_mwm.
  destruct (C26_kc_inputs T D P W (inj R) (map Fin reward) caps) as (inp & E & A1 & A2 & A3 & A4 & A5 & A6 & A7);
    auto using P_Tsp_Constraints.shape_inj.
  { rewrite map_length; auto. }
  cbn zeta in E. fold nz in E. rewrite E; cbn [bind].
  assert (Ei : inp = {| kc_reward_team := map Fin reward; kc_team2knapsack := kc_team2knapsack inp;
      kc_weights := W; kc_reward_project := inj R; kc_max_state := caps; kc_nonzero := map (participants T) W |}).
  { destruct inp; cbn in *; subst; reflexivity. }
  rewrite Ei. assert (En : nz = map (participants T) W).
  { unfold nz, py_nonzero. apply map_ext_in. intros r Hin. unfold participants.
    destruct HW as [L F]. rewrite Forall_forall in F. rewrite (F r Hin). reflexivity. }
  rewrite En.
  assert (In_part : forall d t, d < D -> In t (nth d (map (participants T) W) []) -> nth t (nth d W []) 0 <> 0).
  { intros d t Hd Hin.
    rewrite (nth_indep _ [] (participants T [])) in Hin by (rewrite map_length; destruct HW; lia).
    rewrite map_nth in Hin. unfold participants in Hin. apply filter_In in Hin. destruct Hin as [_ Hin].
    apply negb_true_iff, Nat.eqb_neq in Hin. exact Hin. }
  assert (Start : forall d t, d < D -> t < T ->
     get2 (kc_team2knapsack inp) d t = Some (Fin (if takes_part W d t then nth t reward 0%Qc else 0%Qc))).
  { intros d t Hd Ht. destruct (ArrFacts.get2_lt _ _ _ d t HW Hd Ht) as [w Gw].
    rewrite (A7 d t w (Fin (nth t reward 0%Qc)) Gw).
    2:{ apply (P_Equality.get_mapFin _ _ T); auto. }
    assert (Ew : nth t (nth d W []) 0 = w).
    { unfold get2 in Gw. destruct (get W d) as [r|] eqn:G1; [|discriminate]. cbn [bind] in Gw.
      unfold get in G1, Gw. rewrite (nth_error_nth _ _ _ G1). apply nth_error_nth; exact Gw. }
    unfold takes_part. rewrite Ew. destruct (w =? 0); reflexivity. }
  assert (F0 : finm D T (kc_team2knapsack inp)).
  { apply finm_of; auto. intros d t Hd Ht. rewrite Start by auto. eauto. }
  assert (Hw : forall d, d < D -> nth_error W d = Some (nth d W [])).
  { intros d Hd. apply nth_error_nth'. destruct HW; lia. }
  destruct (kc_run_sem T D P flag alpha W R reward caps (kc_team2knapsack inp) HW HR Hr Hc) with (iters := iters)
    as (st & ext & intr & K & EO & Dm & X & TO & CE & EP & PE & OT & E2 & EI & LE & LI & K0 & EO0 & HT & HS & HE & HI); auto.
  - intros d ws Gd Ep. destruct (Hp d ws Gd) as (t & w & Gt & Hw').
    assert (Hin : In t (participants T ws)).
    { unfold participants. apply filter_In. split.
      - apply in_seq. split; [lia|]. apply get_Some_lt in Gt. rewrite (ArrFacts.shape_row _ _ _ _ _ HW Gd) in Gt. lia.
      - apply negb_true_iff, Nat.eqb_neq. erewrite nth_error_nth by exact Gt. auto. }
    rewrite Ep in Hin. destruct Hin.
  - intros d1 d2 d3 l L1 L2 L3 I1 I2 I3.
    pose proof (In_part _ _ L1 I1) as N1. pose proof (In_part _ _ L2 I2) as N2. pose proof (In_part _ _ L3 I3) as N3.
    destruct (Nat.eq_dec d1 d2); auto. destruct (Nat.eq_dec d1 d3); auto. destruct (Nat.eq_dec d2 d3); auto.
    exfalso. destruct (Nat.lt_total d1 d2) as [A|[A|A]]; try congruence;
      destruct (Nat.lt_total d1 d3) as [B|[B|B]]; try congruence;
      destruct (Nat.lt_total d2 d3) as [C|[C|C]]; try congruence; try lia;
      match goal with
      | H1 : ?a < ?b, H2 : ?b < ?c |- _ => destruct (Htwo a b c l) as [Z|[Z|Z]]; auto; congruence
      end.
  - rewrite E2; cbn [bind]. rewrite EI.
    exists ext, intr, K, EO, Dm, X, TO, CE, EP, PE, OT.
    assert (Start' : forall d x, d < D -> x < T ->
         qat (K 0) d x = if takes_part W d x then nth x reward 0%Qc else 0%Qc).
    { intros d x Hd Hx. rewrite K0. apply (qat_unm D T); auto using finm_shape. }
    assert (Zero : forall t d x, d < D -> x < T -> takes_part W d x = false -> qat (K t) d x = 0%Qc).
    { induction t as [|t IH]; intros d x Hd Hx Z.
      - rewrite Start', Z by auto. reflexivity.
      - destruct (HT t) as [(_ & _ & _ & _ & _ & _ & _ & Q) _]. replace (S t) with (t + 1) by lia.
        destruct (Q d x Hd Hx) as [_ Q2]. rewrite Q2; auto.
        unfold takes_part in Z. apply negb_false_iff, Nat.eqb_eq in Z. exact Z. }
    split; [reflexivity|]. split; [exact LE|]. split; [exact LI|]. split; [exact Start'|].
    split; [exact EO0|]. split; [intros t; apply (HS t)|]. split; [|split; [exact HE|exact HI]].
    intros t. destruct (HT t) as [(Q1 & Q2 & Q3 & Q4 & Q5 & Q6 & Q7 & Q8) QF].
    split; [|split; [exact QF|split; [exact Q2|split; [|split; [exact Q7|]]]]].
    + intros d ws cap Gw Gc. assert (Hd : d < D) by (destruct HW as [<- _]; apply nth_error_Some; congruence).
      destruct (Q1 d Hd ws cap Gw Gc) as [B1 B2]. split; [exact B1|]. intros x Hx Z. apply B2; auto.
      unfold takes_part in Z. rewrite (nth_error_nth _ _ _ Gw) in Z. apply negb_false_iff, Nat.eqb_eq in Z. exact Z.
    + intros p x Hpp Hx. auto.
    + intros d x Hd Hx. destruct (Q8 d x Hd Hx) as [C1 C2]. destruct (takes_part W d x) eqn:Z.
      * apply C1. unfold takes_part in Z. apply negb_true_iff, Nat.eqb_neq in Z. exact Z.
      * rewrite C2; [apply Zero; auto|]. unfold takes_part in Z. apply negb_false_iff, Nat.eqb_eq in Z. exact Z.
Qed.

(** [C14_example] gives an instance and its hypotheses; here without filtering, 0 to 2 iterations *)
Example C50_example :
  let W := [[2; 1; 0]; [0; 1; 2]] in
  let R := map (map zq) [[-4; -1; -2]; [-3; -5; -1]]%Z in
  let reward := map zq [-1; -2; -3]%Z in
  let nz := py_nonzero W in
  map (fun iters => option_map (fun r => (map view (fst r), map view (snd r)))
   (wrapper_kc_mwm iters 2 3 2 (concat (py_team_messages W (map Fin reward))) [3; 2]
        (map Fin reward) (concat (inj R)) (concat W) (concat (py_pad nz)) (map (@length nat) nz)
        (list_max (map (@length nat) nz)) false n0)) [0; 1; 2]
  = [Some ([VFin 0; VFin 0; VFin 0], [VFin 0; VFin 0; VFin 0; VFin 0; VFin 0; VFin 0]);
     Some ([VFin (-2); VFin 1; VFin 4], [VFin (-2); VFin 4; VFin 2; VFin 1; VFin (-1); VFin 3]);
     Some ([VFin (-3); VFin (-3); VFin 7], [VFin (-4); VFin 6; VFin 4; VFin 5; VFin (-5); VFin 6])].
Proof. vm_compute. reflexivity. Qed.

Print Assumptions C49_ksat_run.
Print Assumptions C50_kc_run.
