(** * Property C103: when the C++ TSP solver ends its process, for any inputs. *)
From Verif Require Import Num NumFacts Arr ArrFacts M_InOut M_Runs M_Tsp_Loops M_Tsp_Run M_Tsp_Py P_Tsp_Py.
From Verif Require Import M_PyRef M_PyRef_Run M_PyRef_Tsp T_Tsp_Call T_PyRef_Tsp T_PyRef_Exit.
Local Open Scope nat_scope.

(** subtours are left, no tour was found and none of the reasons for giving up holds *)
Definition unfinished (p : tsp_params) (st : tsp_state) : Prop :=
  p_aug p = true /\ a_satisfied (t_an st) = false /\ a_tour_flag (t_an st) = false /\
  a_nocons_flag (t_an st) = false /\ c_noimp_flag (t_cnt st) = false /\ c_osc_flag (t_cnt st) = false.
(** The messages after the iterations of the round that starts in [st], with the edge messages set to
    the costs if resetting is on, and with rows for the constraints without messages *)
Definition round_messages (p : tsp_params) (st : tsp_state) : option tsp_msgs :=
  let E := tsp_edges (p_in p) in
  let m := t_msgs st in
  e2d <- (if p_reset p then reset_messages E (tsp_cost_matrix (p_in p)) (m_e2d m) else Some (m_e2d m)) ;;
  for_up 0 (p_iters p)
    {| m_e2d := e2d; m_deg_dummy := m_deg_dummy m; m_deg_old := m_deg_old m; m_deg := m_deg m;
       m_sub_dummy := m_sub_dummy m;
       m_sub_old := m_sub_old m ++ zeros (length (a_deltas (t_an st))) (p_e p); m_sub := m_sub m |}
    (augmented_step p (a_deltas (t_an st))).

Lemma neqb_n0 x : neqb x n0 = true <-> x = n0.
Proof.
  destruct x; [|cbn; split; discriminate..]. rewrite neqb_zero_iff. unfold n0.
  split; [intros ->; reflexivity|intros H; injection H; auto].
Qed.
Lemma round_ends p st : iterate_augmented p st = Some Exited <->
  exists m, round_messages p st = Some m /\ has_nan (m_e2d m).
Proof.
  unfold iterate_augmented, round_messages. cbn zeta. split.
  - intros H. apply bind_some in H as (e2d & E1 & H). apply bind_some in H as (m & E2 & H). exists m. rewrite E1. cbn [bind].
    split; [exact E2|]. apply nan_spec. destruct (existsb _ _); [reflexivity|].
    apply bind_some in H as (? & _ & H). apply bind_some in H as (? & _ & H). cbn zeta in H.
    apply bind_some in H as (? & _ & H). apply bind_some in H as (? & _ & H). apply bind_some in H as (? & _ & H). discriminate.
  - intros (m & H & N). apply bind_some in H as (e2d & E1 & H). rewrite E1. cbn [bind]. rewrite H. cbn [bind].
    apply nan_spec in N. rewrite N. reflexivity.
Qed.
Lemma round_not_running p st st' : iterate_augmented p st <> Some (Running st').
Proof.
  intros H. unfold iterate_augmented in H. cbn zeta in H. apply bind_some in H as (? & _ & H). apply bind_some in H as (? & _ & H).
  destruct (existsb _ _); [discriminate|]. apply bind_some in H as (? & _ & H). apply bind_some in H as (? & _ & H). cbn zeta in H.
  apply bind_some in H as (? & _ & H). apply bind_some in H as (? & _ & H). apply bind_some in H as (? & _ & H). discriminate.
Qed.

(** the round that starts in [q] ends the process *)
Definition ends_process (p : tsp_params) (max_augm : Z) (q : tsp_state) : Prop :=
  (exists m, round_messages p q = Some m /\ has_nan (m_e2d m)) \/
  (exists q', iterate_augmented p q = Some (Returned q') /\ Z.of_nat (c_num_aug (t_cnt q')) <> max_augm /\
     unfinished p q' /\ r_cost (t_sol q') = n0).

Lemma test_unfinished p st :
  negb (a_satisfied (t_an st)) && p_aug p && negb (a_tour_flag (t_an st)) = true ->
  a_nocons_flag (t_an st) || c_noimp_flag (t_cnt st) || c_osc_flag (t_cnt st) = false -> unfinished p st.
Proof.
  unfold unfinished. destruct (a_satisfied _), (p_aug p), (a_tour_flag _), (a_nocons_flag _), (c_noimp_flag _), (c_osc_flag _); cbn; auto 10; discriminate.
Qed.
Lemma unfinished_test p st : unfinished p st ->
  negb (a_satisfied (t_an st)) && p_aug p && negb (a_tour_flag (t_an st)) = true /\
  a_nocons_flag (t_an st) || c_noimp_flag (t_cnt st) || c_osc_flag (t_cnt st) = false.
Proof. intros (-> & -> & -> & -> & -> & ->). auto. Qed.

Lemma loop_ends p ma : forall k st, augmentation_loop k p ma st = Some Exited <->
  (unfinished p st /\ r_cost (t_sol st) = n0) \/
  exists j q, j < k /\ augmentation_loop j p ma st = Some (Running q) /\ ends_process p ma q.
Proof.
  assert (G : forall (b : bool) st m, unfinished p (if b then st else set_msgs st m) <-> unfinished p st) by (intros [] st m; reflexivity).
  assert (Gc : forall (b : bool) st m, r_cost (t_sol (if b then st else set_msgs st m)) = r_cost (t_sol st)) by (intros [] st m; reflexivity).
  assert (Z0 : forall k st, unfinished p st -> r_cost (t_sol st) = n0 -> augmentation_loop k p ma st = Some Exited).
  { intros k st U C. apply unfinished_test in U as (B1 & B2). apply neqb_n0 in C. destruct k; cbn [augmentation_loop]; rewrite B1, B2, C; reflexivity. }
  induction k as [|k IH]; intros st.
  - split.
    + intros H. left. cbn [augmentation_loop] in H. destruct (negb _ && _ && _) eqn:B1; [|discriminate].
      destruct (_ || _ || _) eqn:B2; [discriminate|]. destruct (neqb _ _) eqn:C; [|discriminate].
      split; [apply test_unfinished; assumption|apply neqb_n0, C].
    + intros [(U & C)|(? & ? & ? & _)]; [apply Z0; assumption|lia].
  - split.
    + intros H. cbn [augmentation_loop] in H. destruct (negb _ && _ && _) eqn:B1; [|discriminate].
      destruct (_ || _ || _) eqn:B2; [discriminate|]. destruct (neqb _ _) eqn:C.
      { left. split; [apply test_unfinished; assumption|apply neqb_n0, C]. }
      right. assert (R0 : augmentation_loop 0 p ma st = Some (Running st)) by (cbn [augmentation_loop]; rewrite B1, B2, C; reflexivity).
      apply bind_some in H as (out & E & H). destruct out as [st'| |st'].
      * destruct (_ =? _)%Z eqn:Em in H; [discriminate|]. cbn zeta in H. apply IH in H as [(U & C')|(j & q & Hj & R & X)].
        -- rewrite G in U. rewrite Gc in C'. exists 0, st. split; [lia|]. split; [exact R0|]. right. exists st'.
           split; [exact E|]. split; [apply Z.eqb_neq, Em|]. auto.
        -- exists (S j), q. split; [lia|]. split; [|exact X]. cbn [augmentation_loop]. rewrite B1, B2, C, E. cbn [bind]. rewrite Em. exact R.
      * exists 0, st. split; [lia|]. split; [exact R0|]. left. apply round_ends, E.
      * exfalso. exact (round_not_running _ _ _ E).
    + intros [(U & C)|(j & q & Hj & R & X)]; [apply Z0; assumption|].
      destruct j as [|j]; cbn [augmentation_loop] in R |- *; (destruct (negb _ && _ && _) eqn:B1; [|discriminate]);
        (destruct (_ || _ || _) eqn:B2; [discriminate|]); (destruct (neqb _ _) eqn:C; [discriminate|]).
      * injection R as <-. destruct X as [X|(q' & E & Em & U & C')].
        -- apply round_ends in X. rewrite X. reflexivity.
        -- rewrite E. cbn [bind]. apply Z.eqb_neq in Em. rewrite Em. cbn zeta. apply Z0; [rewrite G; exact U|rewrite Gc; exact C'].
      * apply bind_some in R as (out & E & R). rewrite E. cbn [bind]. destruct out as [st'| |st']; [|reflexivity|].
        -- destruct (_ =? _)%Z; [discriminate|]. cbn zeta in R |- *. apply IH. right. exists j, q. split; [lia|auto].
        -- exfalso. exact (round_not_running _ _ _ E).
Qed.

(** The process ends exactly when the first stage leaves subtours and a selection of cost 0, or some
    round computes a message from edges to degree constraints that is not a number, or leaves subtours
    and a selection of cost 0 while the numbers of rounds and repetitions are within their limits. *)
Theorem C103_exit : forall k p max_augm,
  tsp_solve k p max_augm = Some Exited <->
  (exists st, iterate_relaxed p (tsp_init p) = Some st /\ unfinished p st /\ r_cost (t_sol st) = n0) \/
  (exists j q, j < k /\ tsp_solve j p max_augm = Some (Running q) /\ ends_process p max_augm q).
Proof.
  intros k p ma. unfold tsp_solve. destruct (iterate_relaxed p (tsp_init p)) as [st|]; cbn [bind].
  2:{ split; [discriminate|]. intros [(? & ? & _)|(? & ? & _ & ? & _)]; discriminate. }
  destruct (negb (a_satisfied (t_an st)) && p_aug p) eqn:B.
  - unfold perform_augmentation. cbn zeta. rewrite loop_ends.
    assert (X : unfinished p (if 0 <? length (a_deltas (t_an st)) then set_msgs st (extend_sub (length (a_deltas (t_an st))) (p_e p) (t_msgs st)) else st) <-> unfinished p st)
      by (destruct (0 <? _); reflexivity).
    assert (Y : r_cost (t_sol (if 0 <? length (a_deltas (t_an st)) then set_msgs st (extend_sub (length (a_deltas (t_an st))) (p_e p) (t_msgs st)) else st)) = r_cost (t_sol st))
      by (destruct (0 <? _); reflexivity).
    rewrite X, Y. split; (intros [H|H]; [left|right; exact H]).
    + exists st. auto.
    + destruct H as (st' & [= <-] & H). exact H.
  - split; [discriminate|]. intros [(st' & [= <-] & (U1 & U2 & _) & _)|(? & ? & _ & ? & _)]; [|discriminate].
    rewrite U1, U2 in B. discriminate.
Qed.

(** The library tests for such messages in every round, the Python program only when the selection
    stays the same: on the matrix of [C102_example] the library ends the process in the first round,
    Python in the second. *)
Definition same_settings : tsp_options :=
  {| q_iters := 1; q_aug := true; q_reset := true; q_filt := false; q_alpha := n0; q_thr := fz 0;
     q_max_count := 20; q_max_augm := 50 |}.
Definition library (k : nat) (cm : list (list num)) : option outcome :=
  p <- py_call same_settings 4 cm (fun l => l) ;; tsp_solve k p (q_max_augm same_settings).
Example C103_example :
  (exists st, library 0 (one_way PInf) = Some (Running st)) /\
  library 1 (one_way PInf) = Some Exited /\
  (exists q, py_tsp_reference 1 (ref_opts same_settings) 4 (one_way PInf) = Some (PyRunning q)) /\
  py_tsp_reference 2 (ref_opts same_settings) 4 (one_way PInf) = Some PyExit.
Proof.
  split; [eexists; vm_compute; reflexivity|]. split; [vm_compute; reflexivity|].
  split; [eexists; vm_compute; reflexivity|]. vm_compute; reflexivity.
Qed.

Print Assumptions C103_exit.
