(** * Property C51: a TSP call is a min-sum schedule, stage by stage. *)
From Coq Require Import Permutation.
From Verif Require Import Num NumFacts Arr ArrFacts Spec SpecRun SpecGraph MinSum MinSumFacts.
From Verif Require Import P_Tsp_Constraints P_Equality M_InOut P_InOut T_InOut M_Runs P_Runs.
From Verif Require Import M_Tsp_Run P_Tsp_Run P_Tsp_Fin M_Tsp_Py P_Tsp_Py T_Tsp_Run T_Tsp_Call.
From Verif Require Import P_Schedule P_Tsp_Sched P_Tsp_Rounds.
Local Open Scope nat_scope.

(** everything known about the parameters a Python call passes *)
Lemma py_call_full o n C ord p : cost_matrix_ok n C -> py_call o n (inj C) ord = Some p ->
  exists M, p_n p = n /\ complete (p_n p) (tsp_edges (p_in p)) /\ length (tsp_edges (p_in p)) = p_e p /\
    tsp_cost_edge (p_in p) = map Fin (map (fun e => qat C (fst e) (snd e)) (tsp_edges (p_in p))) /\
    tsp_cost_matrix (p_in p) = inj C /\ tsp_degree_cost (p_in p) = inj M /\
    tsp_edge2degree (p_in p) = inj M /\ shape (p_e p) (p_n p) M /\
    p_alpha p = q_alpha o /\ p_filt p = q_filt o /\ p_iters p = q_iters o /\ p_reset p = q_reset o /\ p_ord p = ord /\
    (forall i u v, nth_error (tsp_edges (p_in p)) i = Some (u, v) -> qat M i u = qat C u v /\ qat M i v = qat C u v).
Proof.
  intros H R. set (E := py_edges (inj C)). pose proof (py_edges_complete n C H) as Co. fold E in Co.
  pose proof (complete_length _ _ Co) as L.
  destruct (py_arrays_ok n C E) as (c & M & A & Lc & SM & Ec & HM).
  - apply H.
  - exact (complete_edges_in n E Co).
  - exact (complete_no_self n E Co).
  - exact L.
  - unfold py_call in R. fold E in R. rewrite A in R. cbn [bind] in R. unfold py_num_edges in *. rewrite <- L in R.
    rewrite C26_tsp_inputs in R by (rewrite ?map_length; auto using shape_inj; apply shape_inj; apply H). cbn [bind] in R.
    injection R as <-. exists M. cbn. rewrite Ec. repeat (split; [solve [auto]|]).
    intros i u v G. assert (Huv : u < n /\ v < n /\ u <> v) by (apply (proj2 Co); exact (nth_error_In _ _ G)).
    rewrite !(HM i u v) by (auto; tauto). rewrite !Nat.eqb_refl, orb_true_r. auto.
Qed.
Lemma cost_nth C (E : list (nat * nat)) i u v : nth_error E i = Some (u, v) ->
  nth i (map (fun e => qat C (fst e) (snd e)) E) 0%Qc = qat C u v.
Proof.
  intros G. apply nth_error_nth. rewrite nth_error_map, G. reflexivity.
Qed.
Lemma get2_unm n k m Q i j : finm n k m -> unm m = Q -> i < n -> j < k -> get2 m i j = Some (Fin (qat Q i j)).
Proof. intros (Q' & S & ->) <- Hi Hj. rewrite unm_inj. apply (get2_inj n k); auto. Qed.

(** C51, first stage.  There are messages [V t] (edge to its two end nodes), [Dg t] (node to edge,
    before filtering) and [M t] (filtered) such that [V] starts at the edge costs, [Dg t] holds the
    min-sum messages of "exactly one edge leaves (enters) the node" for the incoming [V t], [M] is
    the filtered history of [Dg], the next message of an edge to one end is its cost plus the
    message from the other end, and the reported value of an edge is the sum of the last messages
    from both ends (plus its cost for the decision). *)
Theorem C51_first_stage : forall o n C ord p st a,
  3 <= n -> cost_matrix_ok n C -> q_alpha o = Fin a -> (forall l, Permutation (ord l) l) ->
  py_call o n (inj C) ord = Some p -> iterate_relaxed p (tsp_init p) = Some st ->
  let E := tsp_edges (p_in p) in
  exists V Dg M : nat -> list (list Qc),
    (forall i u v, nth_error E i = Some (u, v) ->
       qat (V 0) i u = qat C u v /\ qat (V 0) i v = qat C u v) /\
    (forall t,
       (forall u, u < n ->
          (forall pos i, nth_error (from_node E u) pos = Some i ->
             minsum_message exactly_one (map (fun i => qat (V t) i u) (from_node E u)) pos (Fin (qat (Dg t) i u))) /\
          (forall pos i, nth_error (into_node E u) pos = Some i ->
             minsum_message exactly_one (map (fun i => qat (V t) i u) (into_node E u)) pos (Fin (qat (Dg t) i u)))) /\
       (forall i u v, nth_error E i = Some (u, v) ->
          qat (M t) i u = filtered (q_filt o) a (fun r => qat (Dg r) i u) t /\
          qat (M t) i v = filtered (q_filt o) a (fun r => qat (Dg r) i v) t /\
          qat (V (t + 1)) i u = (qat C u v + qat (M t) i v)%Qc /\
          qat (V (t + 1)) i v = (qat C u v + qat (M t) i u)%Qc)) /\
    (forall i u v, nth_error E i = Some (u, v) ->
       get2 (m_e2d (t_msgs st)) i u = Some (Fin (qat (V (q_iters o)) i u)) /\
       get2 (m_e2d (t_msgs st)) i v = Some (Fin (qat (V (q_iters o)) i v)) /\
       exists x, nth_error (r_extr (t_sol st)) i = Some (Fin x) /\
         nth_error (r_intr (t_sol st)) i = Some (Fin (x + qat C u v)%Qc) /\
         (0 < q_iters o -> x = (qat (M (q_iters o - 1)%nat) i u + qat (M (q_iters o - 1)%nat) i v)%Qc)).
Proof.
  intros o n C ord p st a Hn HC Ha Po Hp R E.
  destruct (py_call_full o n C ord p HC Hp)
    as (DC & En & Co & L & Ec & Em & Ed & Ee & SM & Ea & Ef & Ei & Er & Eo & HM).
  set (cost := map (fun e => qat C (fst e) (snd e)) E) in *.
  assert (Lc : length cost = p_e p) by (unfold cost; rewrite map_length; exact L).
  rewrite <- Ea in Ha. rewrite <- Eo in Po. rewrite <- En in Hn.
  assert (SC : shape (p_n p) (p_n p) C) by (rewrite En; apply HC).
  destruct (relaxed_stage p a cost DC DC Hn Co L Ha Ec Lc Ed SM Ee SM st R)
    as (V & Dg & M & V0 & PH & Ve & _ & _ & _ & x & y & Ex & Ey & Lx & Ly & HX).
  assert (Fe : finm (p_e p) (p_n p) (m_e2d (t_msgs st))).
  { destruct (relaxed_fin p Hn Co L (ex_intro _ a Ha) (ex_intro _ cost (conj Lc Ec)) (ex_intro _ DC (conj SM Ed)) (ex_intro _ DC (conj SM Ee)) Po)
      as (st' & R' & F). rewrite R in R'. injection R' as <-. apply F. }
  rewrite <- Ef, <- Ei, <- En.
  exists V, Dg, M. split; [rewrite V0; exact HM|]. split.
  - intros t. destruct (PH t) as (P1 & P2 & P3). split; [exact P1|].
    intros i u v G. assert (Hi : i < p_e p) by (rewrite <- L; apply nth_error_Some; fold E; congruence).
    assert (Huv : u < p_n p /\ v < p_n p /\ u <> v) by (apply (proj2 Co); exact (nth_error_In _ _ G)).
    split; [apply P2; tauto|]. split; [apply P2; tauto|].
    destruct (P3 i u v G) as [Q1 Q2]. destruct (HM i u v G) as [H1 H2]. rewrite Q1, Q2, H1, H2.
    unfold sumcol; cbn [seq map]. change (qsum []) with 0%Qc. split; ring.
  - intros i u v G. assert (Hi : i < p_e p) by (rewrite <- L; apply nth_error_Some; fold E; congruence).
    assert (Huv : u < p_n p /\ v < p_n p /\ u <> v) by (apply (proj2 Co); exact (nth_error_In _ _ G)).
    split; [apply (get2_unm (p_e p) (p_n p)); tauto|]. split; [apply (get2_unm (p_e p) (p_n p)); tauto|].
    destruct (HX i u v G) as [X1 X2]. exists (nth i x 0%Qc).
    rewrite Ex, Ey, !nth_error_map, (nth_error_nth' x 0%Qc), (nth_error_nth' y 0%Qc) by lia. cbn [option_map].
    rewrite X2. unfold cost. rewrite (cost_nth C E i u v G). split; [reflexivity|]. split; [reflexivity|].
    intros Hpos. rewrite (X1 Hpos). unfold sumcol; cbn [seq map]. change (qsum []) with 0%Qc. ring.
Qed.

(** C51, later rounds.  With the subtour constraints [D] known so far, a round runs the same
    schedule with the additional messages [ES t] (edge to constraint), [SD t] (constraint to edge,
    before filtering) and [B t] (filtered, [B 0] being what the previous round left, 0 for new
    constraints).  [V 0] is the edge costs if messages are reset, else what the previous round left.
    Filtering starts afresh in every round. *)
Theorem C51_round : forall o n C ord p st st' l a,
  3 <= n -> cost_matrix_ok n C -> q_alpha o = Fin a -> (forall l, Permutation (ord l) l) ->
  py_call o n (inj C) ord = Some p -> history p (st' :: st :: l) ->
  let E := tsp_edges (p_in p) in
  let D := a_deltas (t_an st) in
  exists V Dg M B ES SD : nat -> list (list Qc),
    (forall i u v, nth_error E i = Some (u, v) ->
       if q_reset o then qat (V 0) i u = qat C u v /\ qat (V 0) i v = qat C u v
       else get2 (m_e2d (t_msgs st)) i u = Some (Fin (qat (V 0) i u)) /\
            get2 (m_e2d (t_msgs st)) i v = Some (Fin (qat (V 0) i v))) /\
    (forall s i, i < length E -> match get2 (m_sub (t_msgs st)) s i with
                 | Some b => b = Fin (qat (B 0) s i)
                 | None => qat (B 0) s i = 0%Qc end) /\
    (forall t,
       (forall u, u < n ->
          (forall pos i, nth_error (from_node E u) pos = Some i ->
             minsum_message exactly_one (map (fun i => qat (V t) i u) (from_node E u)) pos (Fin (qat (Dg t) i u))) /\
          (forall pos i, nth_error (into_node E u) pos = Some i ->
             minsum_message exactly_one (map (fun i => qat (V t) i u) (into_node E u)) pos (Fin (qat (Dg t) i u)))) /\
       (forall i u v, nth_error E i = Some (u, v) ->
          qat (M t) i u = filtered (q_filt o) a (fun r => qat (Dg r) i u) t /\
          qat (M t) i v = filtered (q_filt o) a (fun r => qat (Dg r) i v) t /\
          qat (V (t + 1)) i u =
            (qat C u v + qat (M t) i v + qsum (map (fun s => qat (B (t + 1)%nat) s i) (seq 0 (length D))))%Qc /\
          qat (V (t + 1)) i v =
            (qat C u v + qat (M t) i u + qsum (map (fun s => qat (B (t + 1)%nat) s i) (seq 0 (length D))))%Qc) /\
       (forall s d i u v, nth_error D s = Some d -> In i d -> nth_error E i = Some (u, v) ->
          qat (ES t) s i = (qat C u v + qat (M t) i u + qat (M t) i v +
                            qsum (map (fun s' => qat (B t) s' i) (others s (seq 0 (length D)))))%Qc) /\
       (forall s d pos i, nth_error D s = Some d -> nth_error d pos = Some i ->
          minsum_message at_least_one (map (fun i => qat (ES t) s i) d) pos (Fin (qat (SD t) s i)) /\
          qat (B (t + 1)) s i = filtered (q_filt o) a (fun r => qat (SD r) s i) t)) /\
    (forall t s d i, nth_error D s = Some d -> i < length E -> ~ In i d -> qat (B t) s i = 0%Qc) /\
    (forall s i, s < length D -> i < length E ->
       get2 (m_sub (t_msgs st')) s i = Some (Fin (qat (B (q_iters o)) s i))) /\
    (forall i u v, nth_error E i = Some (u, v) ->
       get2 (m_e2d (t_msgs st')) i u = Some (Fin (qat (V (q_iters o)) i u)) /\
       get2 (m_e2d (t_msgs st')) i v = Some (Fin (qat (V (q_iters o)) i v)) /\
       exists x, nth_error (r_extr (t_sol st')) i = Some (Fin x) /\
         nth_error (r_intr (t_sol st')) i = Some (Fin (x + qat C u v)%Qc) /\
         (0 < q_iters o -> x = (qat (M (q_iters o - 1)%nat) i u + qat (M (q_iters o - 1)%nat) i v +
            qsum (map (fun s => qat (B (q_iters o)) s i) (seq 0 (length D))))%Qc)).
Proof.
  intros o n C ord p st st' l a Hn HC Ha Po Hp HH E D.
  destruct (py_call_full o n C ord p HC Hp)
    as (DC & En & Co & L & Ec & Em & Ed & Ee & SM & Ea & Ef & Ei & Er & Eo & HM).
  set (cost := map (fun e => qat C (fst e) (snd e)) E) in *.
  assert (Lc : length cost = p_e p) by (unfold cost; rewrite map_length; exact L).
  rewrite <- Ea in Ha. rewrite <- Eo in Po. rewrite <- En in Hn.
  assert (SC : shape (p_n p) (p_n p) C) by (rewrite En; apply HC).
  inversion HH as [|s0 s1 l0 HH0 Cn R [Q1 Q2]]. subst s0 s1 l0.
  pose proof (history_kept p a cost DC C DC Hn Co L Ha Ec Lc Ed SM Em SC Ee SM Po st l HH0) as K.
  pose proof (history_kept p a cost DC C DC Hn Co L Ha Ec Lc Ed SM Em SC Ee SM Po st' (st :: l) HH) as K'.
  destruct (round_stage p a cost DC C Hn Co L Ha Ec Lc Ed SM Em SC Po st st' K R)
    as (_ & V & Dg & M & B & ES & SD & V0 & B0 & PH & Ve & Be & x & y & Ex & Ey & Lx & Ly & HX).
  destruct K as ((S1 & ((F1 & _ & _ & _ & F5 & _) & _) & LS) & _ & Ko & _).
  assert (FF : fin_state p (length D) st').
  { destruct (history_fin p Hn Co L (ex_intro _ a Ha) (ex_intro _ cost (conj Lc Ec)) (ex_intro _ C (conj SC Em))
      (ex_intro _ DC (conj SM Ed)) (ex_intro _ DC (conj SM Ee)) Po st l HH0) as (S2 & Fs & Ls).
    pose proof (grow_fin p Hn L S2 st Fs Ls) as G. destruct (grow_fields p st) as (_ & G2 & _).
    unfold D. rewrite <- G2 in G |- *.
    destruct (augmented_fin p Hn Co L (ex_intro _ a Ha) (ex_intro _ cost (conj Lc Ec)) (ex_intro _ C (conj SC Em))
      (ex_intro _ DC (conj SM Ed)) Po _ G) as (st2 & R2 & Fs2 & _). rewrite R in R2. injection R2 as <-. exact Fs2. }
  destruct FF as ((F1' & _ & _ & _ & F5' & _) & _).
  assert (ED : forall s d i, nth_error D s = Some d -> i < p_e p -> ~ In i d -> qat (B 0) s i = 0%Qc).
  { intros s d i G Hi NI. rewrite B0. apply (Ko s d i); auto. }
  assert (RI : forall i u v, nth_error E i = Some (u, v) -> i < p_e p /\ u < p_n p /\ v < p_n p).
  { intros i u v G. split; [rewrite <- L; apply nth_error_Some; fold E; congruence|].
    assert (Huv : u < p_n p /\ v < p_n p /\ u <> v) by (apply (proj2 Co); exact (nth_error_In _ _ G)). tauto. }
  assert (DI : forall s d i, nth_error D s = Some d -> In i d -> i < p_e p).
  { intros s d i G I. destruct (history_fin p Hn Co L (ex_intro _ a Ha) (ex_intro _ cost (conj Lc Ec)) (ex_intro _ C (conj SC Em))
      (ex_intro _ DC (conj SM Ed)) (ex_intro _ DC (conj SM Ee)) Po st l HH0) as (S2 & (_ & _ & _ & _ & Gd) & _).
    rewrite Forall_forall in Gd. destruct (Gd d (nth_error_In _ _ G)) as (_ & _ & X).
    rewrite <- L. rewrite Forall_forall in X. auto. }
  rewrite <- Ef, <- Ei, <- En, <- Er.
  exists V, Dg, M, B, ES, SD. split; [|split; [|split; [|split; [|split]]]].
  - intros i u v G. specialize (V0 i u v G). destruct (RI i u v G) as (Hi & Hu & Hv).
    destruct (p_reset p); [exact V0|]. destruct V0 as [Z1 Z2]. rewrite Z1, Z2.
    split; apply (get2_unm (p_e p) (p_n p)); auto.
  - intros s i Hi. fold E in L. rewrite L in Hi. destruct (Nat.lt_ge_cases s S1) as [Ls|Ls].
    + rewrite (get2_unm S1 (p_e p) _ _ s i F5 eq_refl) by auto. rewrite B0. reflexivity.
    + destruct F5 as (Q & SQ & EQ). rewrite EQ. unfold get2, get.
      replace (nth_error (inj Q) s) with (@None (list num)).
      2:{ symmetry. apply nth_error_None. unfold inj. rewrite map_length. destruct SQ as [-> _]. exact Ls. }
      cbn [bind]. rewrite B0, EQ, unm_inj. apply qat_default. destruct SQ as [-> _]. exact Ls.
  - intros t. destruct (PH t) as (P1 & P2 & P3 & P4 & P5 & P6 & P7). split; [exact P1|]. split; [|split].
    + intros i u v G. destruct (RI i u v G) as (Hi & Hu & Hv).
      split; [apply P2; auto|]. split; [apply P2; auto|].
      destruct (P6 i u v G) as [Q1 Q2]. destruct (HM i u v G) as [H1 H2]. rewrite Q1, Q2, H1, H2.
      split; reflexivity.
    + intros s d i u v G I Gi. rewrite (P3 s d i u v G I Gi).
      unfold cost. rewrite (cost_nth C E i u v Gi). reflexivity.
    + intros s d pos i G Gp. split; [apply (P4 s d pos i G Gp)|].
      apply P5; [apply nth_error_Some; unfold D in G; congruence|].
      apply (DI s d i); auto. eapply nth_error_In; eauto.
  - intros t s d i G Hi NI. fold E in L. rewrite L in Hi. destruct t as [|t]; [apply (ED s d i); auto|].
    rewrite <- Nat.add_1_r. destruct (PH t) as (_ & _ & _ & _ & P5 & _).
    rewrite P5 by (auto; apply nth_error_Some; unfold D in G; congruence). apply filtered_zero. intros r.
    destruct (PH r) as (_ & _ & _ & _ & _ & _ & P7). apply (P7 s d i); auto.
  - intros s i Hs Hi. fold E in L. rewrite L in Hi. apply (get2_unm (length D) (p_e p)); auto.
  - intros i u v G. destruct (RI i u v G) as (Hi & Hu & Hv).
    split; [apply (get2_unm (p_e p) (p_n p)); auto|]. split; [apply (get2_unm (p_e p) (p_n p)); auto|].
    destruct (HX i u v G) as [X1 X2]. exists (nth i x 0%Qc).
    rewrite Ex, Ey, !nth_error_map, (nth_error_nth' x 0%Qc), (nth_error_nth' y 0%Qc) by lia. cbn [option_map].
    rewrite X2. unfold cost. rewrite (cost_nth C E i u v G). split; [reflexivity|]. split; [reflexivity|].
    intros Hpos. rewrite (X1 Hpos). reflexivity.
Qed.

(** the result of a call is the result of its last stage *)
Theorem C51_result : forall fuel p max st, tsp_solve fuel p max = Some (Returned st) ->
  exists st0 l, history p (st0 :: l) /\ t_sol st = t_sol st0.
Proof.
  intros fuel p max st H. destruct (solve_history _ _ _ _ H) as (l & st0 & HH & [(-> & _) | -> ]); exists st0, l.
  - auto.
  - split; auto. apply grow_fields.
Qed.


Definition values_of (st : tsp_state) : list nview := map view (r_extr (t_sol st)).
Definition stage (k : nat) (o : tsp_options) (n : nat) (C : list (list Qc)) : option (list nview) :=
  p <- py_call o n (inj C) (fun l => l) ;;
  st <- iterate_relaxed p (tsp_init p) ;;
  match k with
  | 0 => Some (values_of st)
  | _ => o <- iterate_augmented p (grow p st) ;; match o with Returned st => Some (values_of st) | _ => None end
  end.
(** the twelve edge values of four nodes, two iterations per stage: after the first stage, and after
    one more round with the constraint on edges 6, 7, 9, 10 *)
Example C51_example : cost_matrix_ok 4 cm4 /\
  stage 0 (opt 2 false 20 3) 4 cm4 = Some (map (fun z => VFin (inject_Z z)) [-7; 9; 6; -1; 6; 3; 3; 8; -7; 0; 5; -5]%Z) /\
  stage 1 (opt 2 false 20 3) 4 cm4 = Some (map (fun z => VFin (inject_Z z)) [-7; 9; 6; 2; 6; 3; -6; 1; -4; -5; -2; -5]%Z) /\
  option_map snd (seen (solved 60 (opt 2 false 20 3) 4 cm4)) = Some [[6; 7; 9; 10]].
Proof. split; [exact cm4_ok|]. vm_compute. repeat split. Qed.

(** ** Calls without iterations: every value is 0, so the decision compares the costs themselves *)
Definition idle (p : tsp_params) (st : tsp_state) : Prop :=
  m_deg (t_msgs st) = zeros (p_e p) (p_n p) /\ (exists k, m_sub (t_msgs st) = zeros k (p_e p)) /\
  r_extr (t_sol st) = repeat n0 (p_e p) /\ r_intr (t_sol st) = tsp_cost_edge (p_in p).
Lemma zeros_inj a b : zeros a b = inj (repeat (repeat 0%Qc b) a).
Proof. unfold zeros, inj. rewrite !map_repeat. reflexivity. Qed.
Lemma zeros_app a b k : zeros a k ++ zeros b k = zeros (a + b) k.
Proof. unfold zeros. symmetry. apply repeat_app. Qed.
Lemma qsum_repeat0 k : qsum (repeat 0%Qc k) = 0%Qc.
Proof. induction k; cbn [repeat]; [reflexivity|]. change (0 + qsum (repeat 0 k) = 0)%Qc. rewrite IHk. ring. Qed.
Lemma col_repeat0 a b k i : qsum (col (repeat (repeat 0%Qc b) a) k i) = 0%Qc.
Proof.
  unfold col. induction (seq 0 k) as [|s l IH]; [reflexivity|]. cbn [map].
  match goal with |- qsum (?x :: ?r) = _ => change (x + qsum r = 0)%Qc end. rewrite IH.
  assert (Z : forall s, nth i (nth s (repeat (repeat 0%Qc b) a) []) 0%Qc = 0%Qc).
  { intros s'. destruct (Nat.lt_ge_cases s' a) as [L|L].
    - rewrite (nth_indep _ [] (repeat 0%Qc b)), nth_repeat by (rewrite repeat_length; auto). apply nth_repeat.
    - rewrite (nth_overflow _ []) by (rewrite repeat_length; auto). destruct i; reflexivity. }
  unfold qat. rewrite Z. ring.
Qed.
Lemma all_zero : forall q n, length q = n -> (forall i, i < n -> nth i q 0%Qc = 0%Qc) -> map Fin q = repeat n0 n.
Proof.
  induction q as [|x q IH]; intros [|n] L H; cbn [length] in L; try lia; [reflexivity|]. cbn [map repeat].
  rewrite (IH n); [|lia|intros i Hi; apply (H (S i)); lia]. f_equal. specialize (H 0 (Nat.lt_0_succ n)). cbn in H. now subst.
Qed.
Lemma intrinsic_zero e cost out : length cost = e -> length out = e ->
  intrinsic_output (repeat n0 e) (map Fin cost) out = Some (map Fin cost).
Proof.
  intros L Lo. replace (repeat n0 e) with (map Fin (repeat 0%Qc e)) by (rewrite map_repeat; reflexivity).
  destruct (intrinsic_output_ok e (repeat 0%Qc e) cost out) as (y & -> & Ly & Hy); auto; [apply repeat_length|].
  do 2 f_equal. apply (nth_ext _ _ 0%Qc 0%Qc); [congruence|]. intros i Hi. rewrite Hy by lia. rewrite nth_repeat. ring.
Qed.
Lemma idle_history p st l cost : tsp_cost_edge (p_in p) = map Fin cost -> length cost = p_e p ->
  p_iters p = 0 -> history p (st :: l) -> idle p st.
Proof.
  intros Ec Lc Z H. remember (st :: l) as hs eqn:Q. revert st l Q.
  induction H as [st0 R|st0 st1 l0 H IH Cn R]; intros st l Q; injection Q as <- <-.
  - unfold iterate_relaxed in R. rewrite Z in R.
    match type of R with context [for_up 0 0 ?m ?f] => change (for_up 0 0 m f) with (Some m) in R end.
    cbn [bind tsp_init t_msgs t_sol m_deg r_extr r_intr] in R. rewrite zeros_inj in R.
    destruct (extrinsic_relaxed_ok (p_e p) (p_n p) (repeat (repeat 0%Qc (p_n p)) (p_e p)) (repeat n0 (p_e p)))
      as (x & Ex & Lx & Hx); [apply shape_repeat|apply repeat_length|]. rewrite Ex in R. cbn [bind] in R.
    rewrite (all_zero x (p_e p) Lx) in R.
    2:{ intros i Hi. rewrite Hx by auto. rewrite (nth_indep _ [] (repeat 0%Qc (p_n p))), nth_repeat by (rewrite repeat_length; auto). apply qsum_repeat0. }
    rewrite Ec, (intrinsic_zero (p_e p) cost _ Lc) in R by apply repeat_length. cbn [bind] in R.
    destruct (select_edges _ _ _) as [sel|]; cbn [bind] in R; [|discriminate R].
    destruct (selection_cost _ _) as [cst|]; cbn [bind] in R; [|discriminate R].
    destruct (analyse p _ _) as [a|]; cbn [bind] in R; [|discriminate R]. injection R as <-.
    split; [cbn; rewrite ?zeros_inj; reflexivity|]. split; [exists 0; reflexivity|]. split; [reflexivity|exact (eq_sym Ec)].
  - destruct (IH st0 l0 eq_refl) as (I1 & (k & I2) & I3 & I4).
    assert (G : m_deg (t_msgs (grow p st0)) = zeros (p_e p) (p_n p) /\ (exists k, m_sub (t_msgs (grow p st0)) = zeros k (p_e p)) /\
      t_sol (grow p st0) = t_sol st0).
    { unfold grow. destruct (_ =? _); [eauto|]. cbn [set_msgs t_msgs extend_sub m_deg m_sub t_sol]. rewrite I2, zeros_app. eauto. }
    destruct G as (G1 & (k' & G2) & G3).
    unfold iterate_augmented in R. rewrite Z in R. cbv zeta in R.
    match type of R with context [if p_reset p then ?A else ?B] => destruct (if p_reset p then A else B) as [e2d|] end;
      cbn [bind] in R; [|discriminate R].
    match type of R with context [for_up 0 0 ?m ?f] => change (for_up 0 0 m f) with (Some m) in R end.
    cbn [bind m_e2d m_deg m_sub] in R.
    match type of R with context [existsb ?f ?l] => destruct (existsb f l) end; [discriminate R|].
    rewrite G1, G2, G3, I3 in R. rewrite !zeros_inj in R.
    destruct (extrinsic_augmented_ok (p_e p) (p_n p) k' (repeat (repeat 0%Qc (p_n p)) (p_e p)) (repeat (repeat 0%Qc (p_e p)) k') (repeat n0 (p_e p)))
      as (x & Ex & Lx & Hx); [apply shape_repeat|apply shape_repeat|apply repeat_length|]. rewrite Ex in R. cbn [bind] in R.
    rewrite (all_zero x (p_e p) Lx) in R.
    2:{ intros i Hi. rewrite Hx by auto. rewrite (nth_indep _ [] (repeat 0%Qc (p_n p))), nth_repeat by (rewrite repeat_length; auto).
      rewrite qsum_repeat0, col_repeat0. ring. }
    rewrite I4, Ec, (intrinsic_zero (p_e p) cost _ Lc) in R by (rewrite map_length; exact Lc). cbn [bind] in R.
    destruct (select_edges _ _ _) as [sel|]; cbn [bind] in R; [|discriminate R].
    destruct (selection_cost _ _) as [cst|]; cbn [bind] in R; [|discriminate R].
    destruct (analyse p _ _) as [a|]; cbn [bind] in R; [|discriminate R]. injection R as <-.
    split; [cbn; rewrite ?zeros_inj; reflexivity|]. split; [exists k'; cbn; rewrite ?zeros_inj; reflexivity|].
    split; [reflexivity|exact (eq_sym Ec)].
Qed.
Theorem C51_no_iterations : forall o n C ord p st l,
  cost_matrix_ok n C -> py_call o n (inj C) ord = Some p -> history p (st :: l) -> q_iters o = 0 ->
  forall i u v, nth_error (tsp_edges (p_in p)) i = Some (u, v) ->
    nth_error (r_extr (t_sol st)) i = Some (Fin 0%Qc) /\ nth_error (r_intr (t_sol st)) i = Some (Fin (qat C u v)).
Proof.
  intros o n C ord p st l HC Hp H Z i u v G.
  destruct (py_call_full o n C ord p HC Hp) as (DC & En & Co & L & Ec & Em & Ed & Ee & SM & Ea & Ef & Ei & Er & Eo & HM).
  destruct (idle_history p st l _ Ec) as (_ & _ & -> & ->); auto; [rewrite map_length; exact L|congruence|].
  rewrite Ec, !nth_error_map, G. split; [|reflexivity].
  rewrite (nth_error_nth' _ n0) by (rewrite repeat_length, <- L; apply nth_error_Some; congruence). rewrite nth_repeat. reflexivity.
Qed.
(** a call without iterations and with threshold 3 selects the edges of cost at most 3 *)
Definition opt51 : tsp_options :=
  {| q_iters := 0; q_aug := true; q_reset := true; q_filt := true; q_alpha := Fin (Q2Qc (1 # 2));
     q_thr := Fin (Q2Qc 3); q_max_count := 20; q_max_augm := 3 |}.
Example C51_no_iterations_example :
  stage 1 opt51 4 cm4 = Some (map (fun z => VFin (inject_Z z)) [0; 0; 0; 0; 0; 0; 0; 0; 0; 0; 0; 0]%Z) /\
  option_map (fun o => match o with Returned st => r_selected (t_sol st) | _ => [] end) (solved 60 opt51 4 cm4) =
    Some [(0, 1); (1, 0); (1, 2); (2, 3); (3, 2)].
Proof. vm_compute. split; reflexivity. Qed.

Print Assumptions C51_first_stage.
Print Assumptions C51_round.
Print Assumptions C51_result.
Print Assumptions C51_no_iterations.
