(** * Property C56: whole runs of the pure Python TSP solver and of the C++ library agree.

    The full statement (all settings) is written out, refuted, and proved under the extra hypotheses
    ([_partial]). *)
From Coq Require Import Permutation.
From Verif Require Import Num NumFacts Arr ArrFacts Spec SpecGraph SpecRun MinSum MinSumFacts.
From Verif Require Import P_Tsp_Constraints P_Kc_Trellis P_Ksat P_Equality M_InOut M_Runs P_Runs P_Schedule.
From Verif Require Import M_Tsp_Loops P_Tsp_Loops M_Tsp_Run P_Tsp_Run P_Tsp_Fin P_Tsp_Sched P_Tsp_Rounds.
From Verif Require Import M_Tsp_Py P_Tsp_Py T_InOut T_Tsp_Run T_Tsp_Call T_Tsp_Sched.
From Verif Require Import M_PyRef M_PyRef_Run M_PyRef_Tsp P_PyRef P_PyRef_Run P_PyRef_Tsp.
Local Open Scope nat_scope.

Definition ref_opts (o : tsp_options) : pt_options :=
  {| po_iters := q_iters o; po_aug := q_aug o; po_reset := q_reset o; po_filt := q_filt o;
     po_alpha := q_alpha o; po_thr := q_thr o |}.
(** the Python program, cut after [k] rounds of augmentation *)
Definition reference (o : tsp_options) (n : nat) (C : list (list Qc)) (k : nat) : option pt_outcome :=
  py_tsp_reference k (ref_opts o) n (inj C).
(** the state the Python program is left in, unless it terminated itself *)
Definition final_state (r : pt_outcome) : option pt_state :=
  match r with PyDone ps | PyRunning ps => Some ps | PyExit => None end.

(** The library's state and the Python program's state: same intrinsic output, selected edges, cost,
    subtour constraints and flags; the same loops in the same order, each starting one node earlier
    in Python; the same closed tour, starting one node earlier in Python. *)
Definition same_state (st : tsp_state) (ps : pt_state) : Prop :=
  pt_intr ps = r_intr (t_sol st) /\ pt_selected ps = r_selected (t_sol st) /\ pt_cost ps = r_cost (t_sol st) /\
  pt_deltas ps = a_deltas (t_an st) /\ pt_tour_flag ps = a_tour_flag (t_an st) /\
  pt_satisfied ps = a_satisfied (t_an st) /\
  pt_loops ps = map (fun l => last l 0 :: removelast l) (a_paths (t_an st)) /\
  (a_tour_flag (t_an st) = true ->
     exists l, l <> [] /\ a_tour (t_an st) = l ++ [hd 0 l] /\ pt_tour ps = last l 0 :: l).

(** What the library gives for [k] rounds at most, beside the result [r] of the Python program in
    state [ps]: the same result, or it has stopped earlier, after [j] rounds, because of a limit
    Python does not have, with the state Python has after [j] rounds; or the process has ended
    because the selection of some round costs 0. *)
Definition outcomes (o : tsp_options) (n : nat) (C : list (list Qc)) (k : nat) (r : pt_outcome) (ps : pt_state)
  (out : outcome) : Prop :=
  match out with
  | Running st => r = PyRunning ps /\ same_state st ps /\ c_num_aug (t_cnt st) = k
  | Returned st => exists j q, j <= k /\ c_num_aug (t_cnt st) = j /\ same_state st q /\
      ((reference o n C j = Some (PyDone q) /\ r = PyDone q) \/
       (reference o n C j = Some (PyRunning q) /\
         (a_nocons_flag (t_an st) = true \/ c_noimp_flag (t_cnt st) = true \/ c_osc_flag (t_cnt st) = true \/
          Z.of_nat j = q_max_augm o)))
  | Exited => exists j q, j <= k /\ reference o n C j = Some (PyRunning q) /\ pt_cost q = n0
  end.

(** Full statement *)
Definition c56_full : Prop := forall k o n C a, 3 <= n -> cost_matrix_ok n C -> q_alpha o = Fin a ->
  exists r ps out, reference o n C k = Some r /\ final_state r = Some ps /\
    solved k o n C = Some out /\ outcomes o n C k r ps out.

(** Proved for runs in which the Python program raises no exception and has no empty subtour
    constraint (one for a loop through all nodes found beside other loops), for a threshold that is
    a number, and for a C++ hash map iterated in order of insertion. *)
Lemma call_pieces o n C : cost_matrix_ok n C ->
  exists p M, py_call o n (inj C) (fun l => l) = Some p /\
    py_tsp_initialize n (inj C) = Some {| pd_n := p_n p; pd_cm := inj C; pd_edges := tsp_edges (p_in p);
      pd_cost := map Fin (map (fun e => qat C (fst e) (snd e)) (tsp_edges (p_in p))); pd_degree_cost := inj M |} /\
    p_n p = n /\ p_e p = length (tsp_edges (p_in p)) /\ tsp_edges (p_in p) = py_edges (inj C) /\
    tsp_cost_edge (p_in p) = map Fin (map (fun e => qat C (fst e) (snd e)) (tsp_edges (p_in p))) /\
    tsp_cost_matrix (p_in p) = inj C /\ tsp_degree_cost (p_in p) = inj M /\ tsp_edge2degree (p_in p) = inj M /\
    shape (p_e p) (p_n p) M /\ off_zero (p_n p) (tsp_edges (p_in p)) M /\
    p_iters p = q_iters o /\ p_aug p = q_aug o /\ p_reset p = q_reset o /\ p_filt p = q_filt o /\ p_alpha p = q_alpha o /\
    p_thr p = q_thr o /\ p_max_count p = q_max_count o /\ p_ord p = (fun l => l).
Proof.
  intros H. set (E := py_edges (inj C)). pose proof (py_edges_complete n C H) as Co. fold E in Co.
  pose proof (complete_length _ _ Co) as L.
  destruct (py_arrays_ok n C E) as (c & M & A & Lc & SM & Ec & HM).
  - apply H.
  - exact (complete_edges_in n E Co).
  - exact (complete_no_self n E Co).
  - exact L.
  - unfold py_call, py_tsp_initialize. fold E. rewrite A. cbn [bind]. unfold py_num_edges in *. rewrite <- L.
    rewrite C26_tsp_inputs by (rewrite ?map_length; auto using shape_inj; apply shape_inj; apply H). cbn [bind].
    eexists _, M. split; [reflexivity|]. cbn. rewrite <- Ec. repeat (split; [solve [auto]|]).
    split; [|auto 20]. intros i u v w G Hw Nu Nv. rewrite (HM i u v w G Hw).
    destruct (Nat.eqb_spec w u); [congruence|]. destruct (Nat.eqb_spec w v); [congruence|]. reflexivity.
Qed.
Lemma agrees_same p st ps : agrees p st ps -> same_state st ps.
Proof. intros [A1 A2 A3 A4 [B1 B2 B3 B4 B5]]. unfold same_state. auto 20. Qed.

Theorem C56_tsp_runs_partial : forall k o n C a r ps,
  3 <= n -> cost_matrix_ok n C -> q_alpha o = Fin a -> is_nan (q_thr o) = false ->
  reference o n C k = Some r -> final_state r = Some ps -> ~ In [] (pt_deltas ps) ->
  exists out, solved k o n C = Some out /\ outcomes o n C k r ps out.
Proof.
  intros k o n C a r ps Hn HC Ha Ht R Fr Nr.
  destruct (call_pieces o n C HC) as (p & M & Ep & Ei & En & Ee & EE & Ec & Em & Ed & Ee2 & SM & OM & O1 & O2 & O3 & O4 & O5 & O6 & O7 & O8).
  assert (Co : complete (p_n p) (tsp_edges (p_in p))) by (rewrite En, EE; apply py_edges_complete, HC).
  set (cost := map (fun e => qat C (fst e) (snd e)) (tsp_edges (p_in p))) in *.
  assert (Lc : length cost = p_e p) by (unfold cost; rewrite map_length; auto).
  assert (F : forall j, reference o n C j = py_reference_from p (ref_opts o) cost M C j).
  { intros j. unfold reference, py_tsp_reference. rewrite Ei. cbn [bind pd_degree_cost]. unfold py_reference_from, py_start.
    rewrite En. reflexivity. }
  rewrite F in R.
  assert (St : 0 < po_iters (ref_opts o) /\ (po_filt (ref_opts o) = true -> po_alpha (ref_opts o) <> n0)).
  { unfold py_reference_from, py_start in R. destruct (py_iterate_relaxed _ _ _) as [x|] eqn:X; [|discriminate].
    exact (relaxed_settings _ _ _ _ X). }
  destruct St as (S1 & S2). cbn [ref_opts po_iters po_filt po_alpha] in S1, S2.
  assert (Hal : p_filt p = true -> a <> 0%Qc).
  { intros X Y. subst a. rewrite O4 in X. apply (S2 X). rewrite Ha. reflexivity. }
  rewrite <- En in Hn. rewrite <- O5 in Ha. rewrite <- O6 in Ht. rewrite <- O1 in S1.
  assert (SC : shape (p_n p) (p_n p) C) by (rewrite En; apply HC).
  destruct (reference_same p (ref_opts o) a cost M C Hn Co (eq_sym Ee) Ha Ec Lc Ed SM OM Em SC
     (eq_sym O1) (eq_sym O2) (eq_sym O3) (eq_sym O4) (eq_sym O5) (eq_sym O6) Hal Ht O8 Ee2 (q_max_augm o) k r ps S1 R Fr Nr)
    as (out & Es & OA).
  exists out. split; [unfold solved; rewrite Ep; exact Es|].
  unfold outcomes_agree in OA. unfold outcomes. destruct out as [st| |st].
  - destruct OA as (j & q & Q1 & Q2 & Q3 & Q4). exists j, q. rewrite F. cbn [Nat.add] in Q2. rewrite Q2 in Q4.
    split; [exact Q1|]. split; [exact Q2|]. split; [exact (agrees_same _ _ _ Q3)|exact Q4].
  - destruct OA as (j & q & Q). exists j, q. rewrite F. exact Q.
  - destruct OA as (q & -> & Q2 & Q3). injection Fr as ->. split; [reflexivity|]. split; [exact (agrees_same _ _ _ Q2)|exact Q3].
Qed.

(** If the limits of the library are too large to be reached and no selection costs 0, the library
    returns exactly when Python has finished, with the same tour. *)
Theorem C56_tsp_same_result_partial : forall k o n C a ps,
  3 <= n -> cost_matrix_ok n C -> q_alpha o = Fin a -> is_nan (q_thr o) = false ->
  reference o n C k = Some (PyDone ps) -> ~ In [] (pt_deltas ps) ->
  (Z.of_nat k < q_max_count o)%Z -> (q_max_augm o < 0 \/ Z.of_nat k < q_max_augm o)%Z ->
  (forall j q, j <= k -> reference o n C j = Some (PyRunning q) -> pt_cost q <> n0) ->
  exists st, solved k o n C = Some (Returned st) /\ same_state st ps /\
    a_nocons_flag (t_an st) = false /\ c_noimp_flag (t_cnt st) = false /\ c_osc_flag (t_cnt st) = false.
Proof.
  intros k o n C a ps Hn HC Ha Ht R Nr Hmc Hma Hz.
  destruct (C56_tsp_runs_partial k o n C a (PyDone ps) ps Hn HC Ha Ht R eq_refl Nr) as (out & Es & OA).
  destruct (call_pieces o n C HC) as (p & M & Ep & _ & _ & _ & _ & _ & _ & _ & _ & _ & _ & _ & _ & _ & _ & _ & _ & O7 & O8).
  unfold solved in *. rewrite Ep in *. cbn [bind] in *.
  destruct out as [st| |st]; cbn [outcomes] in OA.
  2:{ destruct OA as (j & q & Q1 & Q2 & Q3). destruct (Hz j q Q1 Q2 Q3). }
  2:{ destruct OA as (Q & _). discriminate. }
  destruct OA as (j & q & Q1 & Q2 & Q3 & Q4).
  assert (NF : a_nocons_flag (t_an st) = false /\ c_noimp_flag (t_cnt st) = false /\ c_osc_flag (t_cnt st) = false).
  { pose proof (solve_history _ _ _ _ Es) as (l & s0 & Hh & Hs).
    destruct (grow_fields p s0) as (_ & T2 & T3).
    assert (X : t_an st = t_an s0 /\ t_cnt st = t_cnt s0) by (destruct Hs as [(-> & _)| ->]; auto).
    destruct X as (-> & X2). rewrite X2 in *.
    assert (Ln : length l = j) by (destruct (history_open _ _ _ Hh) as (_ & _ & _ & Y); rewrite <- Q2; symmetry; exact Y).
    pose proof (history_counted _ _ _ Hh) as (_ & _ & K1 & K2 & K3 & K4).
    pose proof (history_no_loops _ _ _ Hh) as (K5 & K6).
    assert (Ls : length (selections (s0 :: l)) = length l).
    { unfold selections. rewrite map_length. rewrite removelast_firstn_len, firstn_length. cbn. lia. }
    rewrite O7 in *. split; [|split].
    - destruct (a_nocons_flag (t_an s0)); [|reflexivity]. destruct (K6 eq_refl) as (Y1 & Y2 & Y3).
      destruct (K5 Y1 (a_nocons (t_an s0) - 1) ltac:(lia)) as (s & Y4 & _).
      assert (a_nocons (t_an s0) - 1 < length (s0 :: l)) by (apply nth_error_Some; congruence). cbn in H. lia.
    - destruct (c_noimp_flag (t_cnt s0)); [|reflexivity]. destruct (K3 eq_refl) as (Y1 & Y2).
      destruct (K1 (c_noimp (t_cnt s0)) ltac:(lia) Y2) as (s & Y4 & _).
      assert (c_noimp (t_cnt s0) < length (selections (s0 :: l))) by (apply nth_error_Some; congruence). lia.
    - destruct (c_osc_flag (t_cnt s0)); [|reflexivity]. destruct (K4 eq_refl) as (Y1 & Y2).
      destruct (K2 (c_osc (t_cnt s0) - 1) ltac:(lia)) as (s & s' & _ & Y4 & _).
      assert (c_osc (t_cnt s0) - 1 + 2 < length (selections (s0 :: l))) by (apply nth_error_Some; congruence). lia. }
  exists st. split; [exact Es|]. split; [|exact NF]. destruct NF as (N1 & N2 & N3).
  destruct Q4 as [(_ & X)|(_ & [X|[X|[X|X]]])]; [|congruence|congruence|congruence|lia].
  injection X as ->. exact Q3.
Qed.

(** ** The full statement is false *)
Definition reference_raises (k : nat) (o : tsp_options) (n : nat) (C : list (list Qc)) : Prop :=
  reference o n C k = None /\ exists st, solved k o n C = Some (Running st) \/ solved k o n C = Some (Returned st).
Ltac cpp_result := match goal with |- exists st, ?x = _ \/ _ =>
  let y := eval vm_compute in x in
  match y with Some (Running ?s) => exists s; left | Some (Returned ?s) => exists s; right end; vm_compute; reflexivity end.
Definition zero_iterations : tsp_options :=
  {| q_iters := 0; q_aug := true; q_reset := true; q_filt := false; q_alpha := n0;
     q_thr := Fin (Q2Qc (inject_Z 100)); q_max_count := 20; q_max_augm := 3 |}.
Theorem C56_tsp_runs_refuted : ~ c56_full.
Proof.
  intros H. destruct (H 0 zero_iterations 4 cm4 0%Qc ltac:(lia) cm4_ok eq_refl) as (r & ps & out & R & _).
  vm_compute in R. discriminate.
Qed.
(** No iterations: the library goes on, Python raises.  Filtering with [alpha = 0]: the same.  A
    selection without loops: the library goes on, Python raises. *)
Definition alpha_zero : tsp_options :=
  {| q_iters := 1; q_aug := true; q_reset := true; q_filt := true; q_alpha := n0; q_thr := thr4;
     q_max_count := 20; q_max_augm := 3 |}.
Definition few_edges : tsp_options :=
  {| q_iters := 1; q_aug := true; q_reset := true; q_filt := false; q_alpha := n0;
     q_thr := Fin (Q2Qc (inject_Z (-10))); q_max_count := 20; q_max_augm := 3 |}.
Theorem C56_refuted_raises :
  reference_raises 0 zero_iterations 4 cm4 /\ reference_raises 0 alpha_zero 4 cm4 /\ reference_raises 1 few_edges 4 cm4.
Proof. split; [|split]; (split; [vm_compute; reflexivity|cpp_result]). Qed.
(** All edges selected: a loop through all nodes is found beside others, and Python keeps an empty
    constraint for it, the library none.  A threshold that is not a number: the library selects
    all edges, Python none. *)
Definition with_threshold (thr : num) : tsp_options :=
  {| q_iters := 1; q_aug := true; q_reset := true; q_filt := false; q_alpha := n0; q_thr := thr;
     q_max_count := 20; q_max_augm := 3 |}.
Definition first_states (o : tsp_options) (n : nat) (C : list (list Qc)) : option (tsp_state * pt_state) :=
  r <- reference o n C 0 ;; ps <- final_state r ;; out <- solved 0 o n C ;;
  match out with Running st | Returned st => Some (st, ps) | Exited => None end.
Definition pair_view (x : tsp_state * pt_state) :=
  (r_selected (t_sol (fst x)), pt_selected (snd x), a_deltas (t_an (fst x)), pt_deltas (snd x)).
Definition cm3 := mat [[0; 1; 8]; [2; 0; 2]; [4; 8; 0]]%Z.
Lemma cm3_ok : cost_matrix_ok 3 cm3.
Proof. check_matrix. Qed.
Definition edges3 : list (nat * nat) := [(0, 1); (0, 2); (1, 0); (1, 2); (2, 0); (2, 1)].
Theorem C56_refuted_differ :
  option_map pair_view (first_states (with_threshold (Fin (Q2Qc (inject_Z 100)))) 3 cm3)
    = Some (edges3, edges3, [[1; 3]; [0; 5]], [[1; 3]; [0; 5]; []]) /\
  option_map pair_view (first_states (with_threshold NaN) 3 cm3) = Some (edges3, [], [[1; 3]; [0; 5]], []).
Proof. split; vm_compute; reflexivity. Qed.

(** hypotheses met: filtering on, two rounds, three constraints, a tour of all four nodes *)
Example C56_example : exists ps,
  cost_matrix_ok 4 cm4 /\ q_alpha (opt 4 true 20 7) = Fin (Q2Qc (1 # 2)) /\ is_nan (q_thr (opt 4 true 20 7)) = false /\
  reference (opt 4 true 20 7) 4 cm4 5 = Some (PyDone ps) /\ ~ In [] (pt_deltas ps) /\
  pt_tour ps = [0; 1; 2; 3; 0] /\ pt_deltas ps = [[1; 2; 4; 5]; [6; 7; 9; 10]; [2; 5; 8]] /\
  (Z.of_nat 5 < q_max_count (opt 4 true 20 7))%Z /\ (Z.of_nat 5 < q_max_augm (opt 4 true 20 7))%Z /\
  (forall j q, j <= 5 -> reference (opt 4 true 20 7) 4 cm4 j = Some (PyRunning q) -> pt_cost q <> n0).
Proof.
  match goal with |- exists ps, _ /\ _ /\ _ /\ ?x = _ /\ _ =>
    let y := eval vm_compute in x in match y with Some (PyDone ?s) => exists s end end.
  split; [exact cm4_ok|]. split; [reflexivity|]. split; [vm_compute; reflexivity|]. split; [vm_compute; reflexivity|].
  split; [cbn; intuition discriminate|]. split; [reflexivity|]. split; [reflexivity|]. split; [reflexivity|]. split; [reflexivity|].
  intros j q Hj R Q.
  assert (X : match reference (opt 4 true 20 7) 4 cm4 j with Some (PyRunning q) => neqb (pt_cost q) n0 | _ => false end = false).
  { do 6 (destruct j as [|j]; [vm_compute; reflexivity|]). lia. }
  rewrite R, Q in X. vm_compute in X. discriminate.
Qed.

Print Assumptions C56_tsp_runs_partial.
Print Assumptions C56_tsp_same_result_partial.
Print Assumptions C56_tsp_runs_refuted.
Print Assumptions C56_refuted_raises.
Print Assumptions C56_refuted_differ.
