(** * Property C104: rounds of the pure Python TSP solver; it need not stop. *)
From Verif Require Import Num NumFacts Arr ArrFacts Spec M_InOut M_Runs M_Tsp_Loops M_Tsp_Run M_Tsp_Py P_Tsp_Py.
From Verif Require Import M_PyRef M_PyRef_Run M_PyRef_Tsp T_Tsp_Call T_PyRef_Tsp T_PyRef_Exit.
Local Open Scope nat_scope.

Lemma rounds_split o d : forall a b st q, py_rounds a o d st = Some (PyRunning q) ->
  py_rounds (a + b) o d st = py_rounds b o d q.
Proof.
  induction a as [|a IH]; intros b st q H.
  - cbn [py_rounds] in H. cbn [Nat.add]. destruct (_ && _ && _); [|discriminate]. injection H as <-. reflexivity.
  - cbn [Nat.add py_rounds] in *. destruct (_ && _ && _); [|discriminate]. apply bind_some in H as ([st'|] & R & H); [|discriminate].
    rewrite R. cbn [bind]. apply IH, H.
Qed.
Lemma rounds_earlier o d : forall k j st q, k <= j -> py_rounds j o d st = Some (PyRunning q) ->
  exists q', py_rounds k o d st = Some (PyRunning q').
Proof.
  induction k as [|k IH]; intros j st q Hj H.
  - destruct j; cbn [py_rounds] in *; (destruct (_ && _ && _); [eauto|discriminate]).
  - destruct j as [|j]; [lia|]. cbn [py_rounds] in *. destruct (_ && _ && _); [|discriminate].
    apply bind_some in H as ([st'|] & R & H); [|discriminate]. rewrite R. cbn [bind]. eapply IH; [|exact H]. lia.
Qed.
Lemma rounds_final o d : forall k j st r, py_rounds k o d st = Some r -> (forall q, r <> PyRunning q) -> k <= j ->
  py_rounds j o d st = Some r.
Proof.
  induction k as [|k IH]; intros j st r H N Hj.
  - cbn [py_rounds] in H. destruct j; cbn [py_rounds]; destruct (_ && _ && _); auto; injection H as <-; destruct (N st eq_refl).
  - destruct j as [|j]; [lia|]. cbn [py_rounds] in *. destruct (_ && _ && _); [|exact H].
    apply bind_some in H as (x & R & H). rewrite R. cbn [bind]. destruct x as [st'|]; [|exact H]. apply IH; auto. lia.
Qed.
(** a run is its first stage followed by rounds *)
Lemma reference_start o n cm : (forall k, py_tsp_reference k o n cm = None) \/
  exists d st, forall k, py_tsp_reference k o n cm = py_rounds k o d st.
Proof.
  unfold py_tsp_reference. destruct (py_tsp_initialize n cm) as [d|]; cbn [bind]; [|auto].
  destruct (py_iterate_relaxed _ _ _) as [(m & intr)|]; cbn [bind]; [|auto].
  destruct (py_hard_decision _ _ _) as [dec|]; cbn [bind]; [|auto].
  destruct (py_analysis _ _ _ _ _ _ _ _) as [st|]; cbn [bind]; [|auto]. right. eexists d, _. intros k. reflexivity.
Qed.

(** Once a run has ended, in one way or the other, asking for more rounds changes nothing. *)
Theorem C104_final : forall o n cm k j r,
  py_tsp_reference k o n cm = Some r -> (forall q, r <> PyRunning q) -> k <= j -> py_tsp_reference j o n cm = Some r.
Proof.
  intros o n cm k j r H N Hj. destruct (reference_start o n cm) as [E|(d & st & E)]; rewrite E in *; [discriminate|].
  eapply rounds_final; eauto.
Qed.
(** A run that is in the same state after [i] and after [j] rounds never ends, and goes through the
    same states over and over. *)
Theorem C104_repeats : forall o n cm i j q, i < j ->
  py_tsp_reference i o n cm = Some (PyRunning q) -> py_tsp_reference j o n cm = Some (PyRunning q) ->
  (forall k, exists q', py_tsp_reference k o n cm = Some (PyRunning q')) /\
  (forall k, i <= k -> py_tsp_reference (k + (j - i)) o n cm = py_tsp_reference k o n cm).
Proof.
  intros o n cm i j q Hij Hi Hj. destruct (reference_start o n cm) as [E|(d & st & E)]; rewrite E in *; [discriminate|].
  assert (P : forall k, i <= k -> py_rounds (k + (j - i)) o d st = py_rounds k o d st).
  { intros k Hk. replace (k + (j - i)) with (j + (k - i)) by lia. rewrite (rounds_split _ _ _ _ _ _ Hj).
    replace k with (i + (k - i)) at 2 by lia. rewrite (rounds_split _ _ _ _ _ _ Hi). reflexivity. }
  split.
  - intros k. rewrite E. induction k as [k IH] using lt_wf_ind. destruct (Nat.le_gt_cases k j) as [L|L].
    + eapply rounds_earlier; [exact L|exact Hj].
    + destruct (IH (k - (j - i)) ltac:(lia)) as (q' & Q). exists q'.
      rewrite <- (P (k - (j - i))) in Q by lia. replace (k - (j - i) + (j - i)) with k in Q by lia. exact Q.
  - intros k Hk. rewrite !E. apply P, Hk.
Qed.

(** Full statement: with positive costs and at least one iteration per round the program comes to an
    end (a result, an exception or [exit()]). *)
Definition c104_stops : Prop := forall o n C, 3 <= n -> cost_matrix_ok n C ->
  (forall u v, u < n -> v < n -> u <> v -> (0 < qat C u v)%Qc) -> 0 < q_iters o -> q_filt o = false ->
  exists k, forall q, reference o n C k <> Some (PyRunning q).
(** False: four cities, three iterations per round, threshold 0; from the second round on nothing changes
    any more.  The library, with the same inputs, stops. *)
Definition square : list (list Qc) :=
  mat [[0; 1; 6; 5]; [1; 0; 6; 7]; [8; 6; 0; 1]; [5; 4; 1; 0]]%Z.
Lemma square_ok : cost_matrix_ok 4 square.
Proof. check_matrix. Qed.
Definition three : tsp_options :=
  {| q_iters := 3; q_aug := true; q_reset := true; q_filt := false; q_alpha := n0; q_thr := fz 0;
     q_max_count := 5; q_max_augm := 50 |}.
Lemma square_positive u v : u < 4 -> v < 4 -> u <> v -> (0 < qat square u v)%Qc.
Proof. intros Hu Hv N; do 4 (try destruct u as [|u]); try lia; do 4 (try destruct v as [|v]); try lia; reflexivity. Qed.
Example C104_example : exists q, reference three 4 square 2 = Some (PyRunning q) /\ reference three 4 square 3 = Some (PyRunning q) /\
  pt_selected q = [(0, 2); (3, 1)] /\ pt_loops q = [] /\ length (pt_deltas q) = 2.
Proof.
  match goal with |- exists q, ?x = _ /\ _ => let y := eval vm_compute in x in match y with Some (PyRunning ?s) => exists s end end.
  repeat split; vm_compute; reflexivity.
Qed.
Lemma runs_on o n C i j q : i < j -> reference o n C i = Some (PyRunning q) -> reference o n C j = Some (PyRunning q) ->
  forall k, exists q', reference o n C k = Some (PyRunning q').
Proof. unfold reference. intros L A B. exact (proj1 (C104_repeats _ _ _ i j q L A B)). Qed.
Lemma stays o n C k j r : reference o n C k = Some r -> (forall q, r <> PyRunning q) -> k <= j -> reference o n C j = Some r.
Proof. unfold reference. apply C104_final. Qed.
Theorem C104_stops_refuted : ~ c104_stops.
Proof.
  intros H. destruct (H three 4 square ltac:(lia) square_ok square_positive ltac:(cbn; lia) eq_refl) as (k & K).
  destruct C104_example as (q & Q2 & Q3 & _).
  destruct (runs_on three 4 square 2 3 q (Nat.lt_succ_diag_r 2) Q2 Q3 k) as (q' & Q'). exact (K q' Q').
Qed.
Example C104_library_stops : exists st, solved 50 three 4 square = Some (Returned st) /\ a_nocons_flag (t_an st) = true.
Proof.
  match goal with |- exists q, ?x = _ /\ _ => let y := eval vm_compute in x in match y with Some (Returned ?s) => exists s end end.
  split; vm_compute; reflexivity.
Qed.
(** a run that ends, for [C104_final] *)
Example C104_final_example : exists q, reference (opt 4 true 20 7) 4 cm4 5 = Some (PyDone q) /\
  (forall j, 5 <= j -> reference (opt 4 true 20 7) 4 cm4 j = Some (PyDone q)).
Proof.
  match goal with |- exists q, ?x = _ /\ _ => let y := eval vm_compute in x in match y with Some (PyDone ?s) =>
    assert (H : x = Some (PyDone s)) by (vm_compute; reflexivity); exists s end end.
  split; [exact H|]. intros j Hj. exact (stays _ _ _ 5 j _ H ltac:(discriminate) Hj).
Qed.

Print Assumptions C104_final.
Print Assumptions C104_repeats.
Print Assumptions C104_stops_refuted.
