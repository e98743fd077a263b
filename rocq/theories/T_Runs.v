(** * Properties C14 and C15: KC-MWM and K-SAT runs stay finite and in bounds. *)
From Verif Require Import Num NumFacts Arr ArrFacts Spec M_InOut P_InOut T_InOut M_Knapsack M_Runs P_Runs.
Local Open Scope nat_scope.

(** C14.  The whole call, from the flattened Python arrays to the two output arrays, for any
    number of iterations: no out-of-range access ([Some]) and only finite values. *)
Theorem C14_kc_mwm_safe :
  forall (iters T D P : nat) (W : list (list nat)) (R : list (list Qc)) (reward : list Qc)
         (caps : list nat) (flag : bool) (alpha : Qc),
    shape D T W -> shape P T R -> length reward = T -> length caps = D ->
    (* every department has a participating team, and each team fits alone *)
    (forall d ws, nth_error W d = Some ws -> exists t w, nth_error ws t = Some w /\ w <> 0) ->
    (forall d ws cap, nth_error W d = Some ws -> nth_error caps d = Some cap ->
       Forall (fun w => w <= cap) ws) ->
    (* no team in three departments *)
    (forall d1 d2 d3 t, d1 < d2 < d3 -> d3 < D ->
       nth t (nth d1 W []) 0 = 0 \/ nth t (nth d2 W []) 0 = 0 \/ nth t (nth d3 W []) 0 = 0) ->
    let nz := py_nonzero W in
    exists ext intr : list Qc,
      wrapper_kc_mwm iters D T P (concat (py_team_messages W (map Fin reward))) caps
        (map Fin reward) (concat (inj R)) (concat W) (concat (py_pad nz)) (map (@length nat) nz)
        (list_max (map (@length nat) nz)) flag (Fin alpha) = Some (map Fin ext, map Fin intr) /\
      length ext = T /\ length intr = P * T.
Proof.
  intros iters T D P W R reward caps flag alpha HW HR Hr Hc Hp Hfit Htwo nz.
  unfold wrapper_kc_mwm.
  destruct (C26_kc_inputs T D P W (inj R) (map Fin reward) caps) as (inp & E & A1 & A2 & A3 & A4 & A5 & A6 & A7);
    auto using P_Tsp_Constraints.shape_inj.
  { rewrite map_length; auto. }
  cbn zeta in E. fold nz in E. rewrite E; cbn [bind].
  assert (Ei : inp = {| kc_reward_team := map Fin reward; kc_team2knapsack := kc_team2knapsack inp;
      kc_weights := W; kc_reward_project := inj R; kc_max_state := caps; kc_nonzero := map (participants T) W |}).
  { destruct inp; cbn in *; subst; reflexivity. }
  rewrite Ei. assert (En : nz = map (participants T) W).
  { unfold nz, py_nonzero. apply map_ext_in. intros r Hin. unfold participants.
    destruct HW as [L F]. rewrite Forall_forall in F. rewrite (F r Hin). reflexivity. }
  rewrite En.
  assert (In_part : forall d t, d < D -> In t (nth d (map (participants T) W) []) -> nth t (nth d W []) 0 <> 0).
  { intros d t Hd Hin. change (@nil nat) with (participants T []) in Hin at 1 || idtac.
    rewrite (nth_indep _ [] (participants T [])) in Hin by (rewrite map_length; destruct HW; lia).
    rewrite map_nth in Hin. unfold participants in Hin. apply filter_In in Hin. destruct Hin as [_ Hin].
    apply negb_true_iff, Nat.eqb_neq in Hin. exact Hin. }
  destruct (kc_iterate_fin T D P flag alpha W R reward caps (kc_team2knapsack inp) HW HR Hr Hc) with (iters := iters)
    as (st & ext & E2 & F & (q & Lq & ->)).
  - intros d ws Gd Ep. destruct (Hp d ws Gd) as (t & w & Gt & Hw).
    assert (Hin : In t (participants T ws)).
    { unfold participants. apply filter_In. split.
      - apply in_seq. split; [lia|]. apply get_Some_lt in Gt. rewrite (ArrFacts.shape_row _ _ _ _ _ HW Gd) in Gt. lia.
      - apply negb_true_iff, Nat.eqb_neq. erewrite nth_error_nth by exact Gt. auto. }
    rewrite Ep in Hin. destruct Hin.
  - intros d ws cap G1 G2. eapply Hfit; eauto.
  - intros d1 d2 d3 l L1 L2 L3 I1 I2 I3.
    pose proof (In_part _ _ L1 I1) as N1. pose proof (In_part _ _ L2 I2) as N2. pose proof (In_part _ _ L3 I3) as N3.
    destruct (Nat.eq_dec d1 d2); auto. destruct (Nat.eq_dec d1 d3); auto. destruct (Nat.eq_dec d2 d3); auto.
    exfalso. destruct (Nat.lt_total d1 d2) as [A|[A|A]]; try congruence;
      destruct (Nat.lt_total d1 d3) as [B|[B|B]]; try congruence;
      destruct (Nat.lt_total d2 d3) as [C|[C|C]]; try congruence; try lia;
      match goal with
      | H1 : ?a < ?b, H2 : ?b < ?c |- _ => destruct (Htwo a b c l) as [X|[X|X]]; auto; congruence
      end.
  - apply finm_of; auto. intros d t Hd Ht. destruct (ArrFacts.get2_lt _ _ _ d t HW Hd Ht) as [w Gw].
    rewrite (A7 d t w (Fin (nth t reward 0%Qc)) Gw).
    + destruct (w =? 0); unfold n0; eauto.
    + apply (P_Equality.get_mapFin _ _ T); auto.
  - rewrite E2; cbn [bind].
    destruct F as (_ & _ & _ & _ & _ & _ & _ & _ & _ & _ & (iq & Li & Ei2)). rewrite Ei2.
    exists q, iq. auto.
Qed.

(** C15.  Same for K-SAT. *)
Theorem C15_ksat_safe :
  forall (iters nv nc k : nat) (used : list nat) (metrics : list Qc) (conx : list (list nat))
         (types : list (list Z)) (M : list (list Qc)) (varconx : list (list nat))
         (flag : bool) (alpha : Qc),
    2 <= k -> length metrics = nv -> shape nc k conx -> shape nc k types -> shape nc nv M ->
    (forall c cx tys, nth_error conx c = Some cx -> nth_error types c = Some tys ->
       clause_wf nv k cx tys) ->
    length varconx = nv -> Forall (fun x => x < nv) used ->
    (forall x l, nth_error varconx x = Some l -> Forall (fun c => c < nc) l) ->
    (forall j, j < nv -> ~ In j used -> nth j varconx [] = []) ->
    exists ext : list Qc,
      wrapper_ksat iters nv nc (length used) (Fin alpha) flag used (concat varconx)
        (map (@length nat) varconx) (concat conx) (concat types) (map Fin metrics) (concat (inj M)) k
      = Some (map Fin ext) /\ length ext = nv.
Proof.
  intros iters nv nc k used metrics conx types M varconx flag alpha Hk Hm Hc Ht HM Hwf Hv Hu Hin Hun.
  unfold wrapper_ksat. rewrite C26_ksat_inputs; auto using P_Tsp_Constraints.shape_inj.
  2:{ rewrite map_length; auto. }
  cbn [bind].
  destruct (ksat_iterate_fin nv nc k flag alpha conx types used metrics varconx (inj M)) with (iters := iters)
    as (st & ext & E & _ & (q & Lq & ->)); auto.
  - destruct Hc; auto.
  - destruct Ht; auto.
  - exists M; auto.
  - rewrite E; cbn [bind]. exists q; auto.
Qed.

(** two departments (capacities 3 and 2), three teams (team 1 in both), two projects; three
    iterations with filtering *)
Example C14_example :
  let W := [[2; 1; 0]; [0; 1; 2]] in
  let R := map (map zq) [[-4; -1; -2]; [-3; -5; -1]]%Z in
  let reward := map zq [-1; -2; -3]%Z in
  let nz := py_nonzero W in
  option_map (fun r => (map view (fst r), map view (snd r)))
   (wrapper_kc_mwm 3 2 3 2 (concat (py_team_messages W (map Fin reward))) [3; 2]
        (map Fin reward) (concat (inj R)) (concat W) (concat (py_pad nz)) (map (@length nat) nz)
        (list_max (map (@length nat) nz)) true (Fin (Q2Qc (1 # 2))))
  = Some ([VFin (-3); VFin (-23 # 8); VFin 7],
          [VFin (-4); VFin (15 # 2); VFin 4; VFin (39 # 8); VFin (-39 # 8); VFin (51 # 8)]).
Proof. vm_compute. reflexivity. Qed.
Example C14_example_hypotheses :
  let W := [[2; 1; 0]; [0; 1; 2]] in
  shape 2 3 W /\ (forall d ws, nth_error W d = Some ws -> exists t w, nth_error ws t = Some w /\ w <> 0) /\
  (forall d ws cap, nth_error W d = Some ws -> nth_error [3; 2] d = Some cap -> Forall (fun w => w <= cap) ws).
Proof.
  split; [split; repeat constructor|]. split.
  - intros [|[|d]] ws H; cbn in H; try (destruct d; discriminate); injection H as <-.
    + exists 0, 2; auto.
    + exists 1, 1; auto.
  - intros [|[|d]] ws cap H1 H2; cbn in H1, H2; try (destruct d; discriminate);
      injection H1 as <-; injection H2 as <-; repeat constructor.
Qed.
Example C15_example :
  let conx := [[0; 1; 2]; [1; 2; 3]; [2; 3; 0]] in
  let types := [[1; -1; 1]; [-1; -1; 1]; [1; 1; -1]]%Z in
  let varconx := [[0; 2]; [0; 1]; [0; 1; 2]; [1; 2]] in
  (forall c cx tys, nth_error conx c = Some cx -> nth_error types c = Some tys -> clause_wf 4 3 cx tys) /\
  option_map (map view)
    (wrapper_ksat 3 4 3 4 (Fin (Q2Qc (1 # 2))) true [0; 1; 2; 3] (concat varconx)
       (map (@length nat) varconx) (concat conx) (concat types) (map zn [1; -2; 3; -1]%Z)
       (concat (inj (map (map zq) [[1; -2; 3; 0]; [0; -2; 3; -1]; [1; 0; 3; -1]]%Z))) 3)
  = Some [VFin (-7 # 4); VFin (7 # 8); VFin (-7 # 8); VFin (-1 # 4)].
Proof.
  split.
  - intros [|[|[|c]]] cx tys H1 H2; cbn in H1, H2; try (destruct c; discriminate);
      injection H1 as <-; injection H2 as <-; unfold clause_wf, pm1;
      repeat split; auto; repeat constructor; auto; cbn; intuition discriminate.
  - vm_compute. reflexivity.
Qed.

(** the bound k >= 2 cannot be dropped: a one-literal clause forces its variable with -inf *)
Example C15_unit_clause_infinite :
  option_map (map view)
    (wrapper_ksat 1 1 1 1 n0 false [0] [0] [1] [0] [1]%Z [n0] [n0] 1) = Some [VNInf].
Proof. vm_compute. reflexivity. Qed.

Print Assumptions C14_kc_mwm_safe.
Print Assumptions C15_ksat_safe.
