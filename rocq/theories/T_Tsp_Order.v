(** * Property C57: whole TSP runs and the iteration order of the hash map.

    [get_closed_loops] iterates over a [std::unordered_map], whose order is unspecified.  The full
    statement (the order has no influence) is written out, refuted, and proved for runs in which no
    two different cycles of a selection have a node in common ([_partial]). *)
From Coq Require Import Permutation.
From Verif Require Import Num NumFacts Arr ArrFacts Spec SpecGraph SpecRun MinSum MinSumFacts.
From Verif Require Import P_Tsp_Constraints M_InOut M_Runs P_Runs.
From Verif Require Import M_Tsp_Loops P_Tsp_Loops M_Tsp_Run P_Tsp_Run P_Tsp_Fin P_Tsp_Sched P_Tsp_Rounds.
From Verif Require Import M_Tsp_Py P_Tsp_Py T_InOut T_Tsp_Run T_Tsp_Call T_Tsp_Sched.
From Verif Require Import M_PyRef_Tsp P_PyRef_Tsp T_PyRef_Tsp P_Tsp_Order.
Local Open Scope nat_scope.

(** a call of the package with a hash map iterated in the order [ord] *)
Definition solved_ord (fuel : nat) (o : tsp_options) (n : nat) (C : list (list Qc)) (ord : list nat -> list nat)
  : option outcome := p <- py_call o n (inj C) ord ;; tsp_solve fuel p (q_max_augm o).

(** Same messages to the user: extrinsic and intrinsic outputs, selected edges and cost; counters and
    flags; number of constraints handed back; the same constraints and loop lengths in any order; the
    same loops in any order, each started at any of its nodes; the same tour, started at any node. *)
Definition same_report (st1 st2 : tsp_state) : Prop :=
  r_extr (t_sol st1) = r_extr (t_sol st2) /\ r_intr (t_sol st1) = r_intr (t_sol st2) /\
  r_selected (t_sol st1) = r_selected (t_sol st2) /\ r_cost (t_sol st1) = r_cost (t_sol st2) /\
  t_cnt st1 = t_cnt st2 /\ length (m_sub (t_msgs st1)) = length (m_sub (t_msgs st2)) /\
  a_tour_flag (t_an st1) = a_tour_flag (t_an st2) /\ a_satisfied (t_an st1) = a_satisfied (t_an st2) /\
  a_nocons_flag (t_an st1) = a_nocons_flag (t_an st2) /\
  Permutation (a_deltas (t_an st1)) (a_deltas (t_an st2)) /\ Permutation (a_sizes (t_an st1)) (a_sizes (t_an st2)) /\
  (exists K, Permutation (a_paths (t_an st1)) K /\ Forall2 rotation K (a_paths (t_an st2))) /\
  (a_tour_flag (t_an st1) = true -> exists h1 h2, a_tour (t_an st1) = h1 ++ [hd 0 h1] /\
     a_tour (t_an st2) = h2 ++ [hd 0 h2] /\ rotation h1 h2).
Definition same_end (o1 o2 : outcome) : Prop :=
  match o1, o2 with
  | Returned st1, Returned st2 => same_report st1 st2
  | Running st1, Running st2 => same_report st1 st2
  | Exited, Exited => True
  | _, _ => False
  end.

(** Full statement *)
Definition c57_full : Prop := forall k o n C a ord1 ord2, 3 <= n -> cost_matrix_ok n C -> q_alpha o = Fin a ->
  (forall l, Permutation (ord1 l) l) -> (forall l, Permutation (ord2 l) l) ->
  exists o1 o2, solved_ord k o n C ord1 = Some o1 /\ solved_ord k o n C ord2 = Some o2 /\ same_end o1 o2.

Lemma same_run_report st1 st2 : same_run st1 st2 -> same_report st1 st2.
Proof.
  intros [S1 S2 S3 [A1 A2 A3 A4 A5 A6 A7 A8 A9]]. unfold same_report. rewrite S1. auto 20.
Qed.
Lemma call_ord o n C ord1 ord2 p1 : cost_matrix_ok n C -> py_call o n (inj C) ord1 = Some p1 ->
  p1 = with_ord p1 ord1 /\ py_call o n (inj C) ord2 = Some (with_ord p1 ord2).
Proof.
  intros _. unfold py_call. cbv zeta. destruct (py_tsp_arrays _ _ _) as [(ce & m)|]; cbn [bind]; [|discriminate].
  destruct (tsp_process_inputs _ _ _ _ _ _ _) as [i|]; cbn [bind]; [|discriminate]. intros H. injection H as <-. split; reflexivity.
Qed.

(** Proved for selections in which two different cycles have no node in common. *)
Theorem C57_order_free_partial : forall k o n C a ord1 ord2 p,
  3 <= n -> cost_matrix_ok n C -> q_alpha o = Fin a ->
  (forall l, Permutation (ord1 l) l) -> (forall l, Permutation (ord2 l) l) ->
  py_call o n (inj C) ord1 = Some p ->
  (forall st l, history p (st :: l) -> length l <= k ->
     forall c c' x, cycle (r_selected (t_sol st)) c -> cycle (r_selected (t_sol st)) c' -> In x c -> In x c' -> rotation c c') ->
  exists o1 o2, solved_ord k o n C ord1 = Some o1 /\ solved_ord k o n C ord2 = Some o2 /\ same_end o1 o2.
Proof.
  intros k o n C a ord1 ord2 p Hn HC Ha P1 P2 Hp F.
  destruct (call_ord o n C ord1 ord2 p HC Hp) as (Q1 & Q2).
  destruct (py_call_full o n C ord1 p HC Hp)
    as (DC & En & Co & L & Ec & Em & Ed & Ee & SM & Ea & Ef & Ei & Er & Eo & HM).
  set (cost := map (fun e => qat C (fst e) (snd e)) (tsp_edges (p_in p))) in *.
  assert (Lc : length cost = p_e p) by (unfold cost; rewrite map_length; exact L).
  rewrite <- Ea in Ha. rewrite <- En in Hn.
  assert (SC : shape (p_n p) (p_n p) C) by (rewrite En; apply HC).
  destruct (solve_order p ord1 ord2 a cost DC C DC Hn Co L Ha Ec Lc Ed SM Em SC Ee SM P1 P2 k (q_max_augm o)) as (o1 & o2 & R1 & R2 & S).
  { rewrite <- Q1. intros st l H Hl. destruct (loops_order ord1 ord2 (r_selected (t_sol st)) P1 P2) as (K1 & K2 & K); [|exists K1, K2; exact K].
    intros c c' x. apply (F st l H Hl). }
  rewrite <- Q1 in R1. exists o1, o2. unfold solved_ord. rewrite Hp, Q2. cbn [bind]. split; [exact R1|]. split; [exact R2|].
  destruct o1, o2; cbn in S |- *; auto using same_run_report.
Qed.
(** in particular when every node has at most one selected outgoing edge *)
Theorem C57_one_successor_partial : forall k o n C a ord1 ord2 p,
  3 <= n -> cost_matrix_ok n C -> q_alpha o = Fin a ->
  (forall l, Permutation (ord1 l) l) -> (forall l, Permutation (ord2 l) l) ->
  py_call o n (inj C) ord1 = Some p ->
  (forall st l u v v', history p (st :: l) -> length l <= k ->
     In (u, v) (r_selected (t_sol st)) -> In (u, v') (r_selected (t_sol st)) -> v = v') ->
  exists o1 o2, solved_ord k o n C ord1 = Some o1 /\ solved_ord k o n C ord2 = Some o2 /\ same_end o1 o2.
Proof.
  intros k o n C a ord1 ord2 p Hn HC Ha P1 P2 Hp F. eapply C57_order_free_partial; eauto.
  intros st l H Hl. apply functional_separate. intros u v v'. apply (F st l u v v' H Hl).
Qed.
(** With C56: under the hypotheses of both, the library agrees with the pure Python program whatever
    the order of its hash map. *)
Theorem C57_python_partial : forall k o n C a ord p r ps,
  3 <= n -> cost_matrix_ok n C -> q_alpha o = Fin a -> is_nan (q_thr o) = false ->
  (forall l, Permutation (ord l) l) ->
  py_call o n (inj C) (fun l => l) = Some p ->
  (forall st l, history p (st :: l) -> length l <= k ->
     forall c c' x, cycle (r_selected (t_sol st)) c -> cycle (r_selected (t_sol st)) c' -> In x c -> In x c' -> rotation c c') ->
  reference o n C k = Some r -> final_state r = Some ps -> ~ In [] (pt_deltas ps) ->
  exists out out', outcomes o n C k r ps out /\ solved_ord k o n C ord = Some out' /\ same_end out out'.
Proof.
  intros k o n C a ord p r ps Hn HC Ha Ht Po Hp F R Fr Nr.
  destruct (C56_tsp_runs_partial k o n C a r ps Hn HC Ha Ht R Fr Nr) as (out & Es & OA).
  destruct (C57_order_free_partial k o n C a (fun l => l) ord p Hn HC Ha) as (o1 & o2 & R1 & R2 & S); auto.
  change (solved_ord k o n C (fun l => l)) with (solved k o n C) in R1. rewrite Es in R1. injection R1 as <-.
  exists out, o2. auto.
Qed.

(** ** Refutation: two orders, two different results *)
Definition cm57 := mat [[0;4;8;6;9];[6;0;9;5;8];[2;6;0;5;1];[7;2;4;0;6];[9;6;3;6;0]]%Z.
Lemma cm57_ok : cost_matrix_ok 5 cm57.
Proof. check_matrix. Qed.
Definition ends_with (o : option outcome) : option (list (nat * nat) * nat * nat) :=
  match o with
  | Some (Returned st) => Some (r_selected (t_sol st), length (a_deltas (t_an st)), c_num_aug (t_cnt st))
  | _ => None
  end.
Lemma cm57_runs :
  exists e1 e2 d1 d2 a1 a2, ends_with (solved_ord 12 (opt 3 false 20 10) 5 cm57 (fun l => l)) = Some (e1, d1, a1) /\
    ends_with (solved_ord 12 (opt 3 false 20 10) 5 cm57 (@rev nat)) = Some (e2, d2, a2) /\ length e1 <> length e2.
Proof. do 6 eexists. split; [vm_compute; reflexivity|]. split; [vm_compute; reflexivity|]. vm_compute. lia. Qed.
Theorem C57_order_free_refuted : ~ c57_full.
Proof.
  intros H. destruct (H 12 (opt 3 false 20 10) 5 cm57 (Q2Qc (1 # 2)) (fun l => l) (@rev nat)) as (o1 & o2 & R1 & R2 & S); auto.
  - exact cm57_ok.
  - intros l. symmetry. apply Permutation_rev.
  - destruct cm57_runs as (e1 & e2 & d1 & d2 & a1 & a2 & X1 & X2 & N). rewrite R1 in X1. rewrite R2 in X2. clear R1 R2 H.
    destruct o1 as [st1| |]; try discriminate. destruct o2 as [st2| |]; try discriminate.
    cbn in X1, X2, S. injection X1 as <- _ _. injection X2 as <- _ _. destruct S as (_ & _ & S & _). congruence.
Qed.

(** ** A run that meets the hypotheses: two loops of two nodes, then a round with the two constraints *)
(** the states of a run by computation *)
Fixpoint stage (p : tsp_params) (j : nat) : option tsp_state :=
  match j with
  | O => iterate_relaxed p (tsp_init p)
  | Datatypes.S j => st <- stage p j ;; match iterate_augmented p (grow p st) with Some (Returned st') => Some st' | _ => None end
  end.
Lemma history_stage p st l : history p (st :: l) -> stage p (length l) = Some st.
Proof.
  intros H. remember (st :: l) as hs eqn:Q. revert st l Q.
  induction H as [st0 R|st0 st1 l0 H IH C R]; intros st l Q; injection Q as <- <-; [exact R|].
  cbn [length stage]. rewrite (IH st0 l0 eq_refl). cbn [bind]. rewrite R. reflexivity.
Qed.
Definition one_successor (E : list (nat * nat)) : bool :=
  forallb (fun e => forallb (fun e' => negb (fst e =? fst e') || (snd e =? snd e')) E) E.
Lemma one_successor_ok E : one_successor E = true -> functional E.
Proof.
  intros H u v v' I I'. unfold one_successor in H. rewrite forallb_forall in H. specialize (H _ I).
  rewrite forallb_forall in H. specialize (H _ I'). cbn in H. rewrite Nat.eqb_refl in H. cbn in H. now apply Nat.eqb_eq.
Qed.
Definition cx57 := mat [[0;1;6;7];[2;0;5;6];[5;6;0;1];[7;5;2;0]]%Z.
Example C57_example : exists p, py_call (opt 6 false 20 10) 4 (inj cx57) (fun l => l) = Some p /\ cost_matrix_ok 4 cx57 /\
  (forall st l, history p (st :: l) -> length l <= 1 ->
     forall c c' x, cycle (r_selected (t_sol st)) c -> cycle (r_selected (t_sol st)) c' -> In x c -> In x c' -> rotation c c') /\
  option_map (fun o => match o with Running st | Returned st => a_deltas (t_an st) | Exited => [] end)
    (solved_ord 1 (opt 6 false 20 10) 4 cx57 (fun l => l)) = Some [[1; 2; 4; 5]; [6; 7; 9; 10]] /\
  option_map (fun o => match o with Running st | Returned st => a_deltas (t_an st) | Exited => [] end)
    (solved_ord 1 (opt 6 false 20 10) 4 cx57 (@rev nat)) = Some [[6; 7; 9; 10]; [1; 2; 4; 5]].
Proof.
  assert (Ok : cost_matrix_ok 4 cx57) by check_matrix.
  destruct (call_pieces (opt 6 false 20 10) 4 cx57 Ok) as (p & M & Ep & _). exists p. split; [exact Ep|]. split; [exact Ok|].
  split; [|vm_compute; auto]. intros st l H Hl. apply prune_separate, functional_separate, one_successor_ok.
  apply history_stage in H.
  assert (X : forall j, j <= 1 -> option_map (fun st => one_successor (prune (r_selected (t_sol st))))
     (p <- py_call (opt 6 false 20 10) 4 (inj cx57) (fun l => l) ;; stage p j) = Some true).
  { intros j Hj. assert (j = 0 \/ j = 1) as [-> | ->] by lia; vm_compute; reflexivity. }
  specialize (X (length l) Hl). rewrite Ep in X. cbn [bind] in X. rewrite H in X. cbn in X. congruence.
Qed.
Example C57_example_applied : exists o1 o2, solved_ord 1 (opt 6 false 20 10) 4 cx57 (fun l => l) = Some o1 /\
  solved_ord 1 (opt 6 false 20 10) 4 cx57 (@rev nat) = Some o2 /\ same_end o1 o2.
Proof.
  destruct C57_example as (p & Ep & Ok & F & _).
  apply (C57_order_free_partial 1 (opt 6 false 20 10) 4 cx57 (Q2Qc (1 # 2)) (fun l => l) (@rev nat) p); auto.
  intros l. symmetry. apply Permutation_rev.
Qed.

Print Assumptions C57_order_free_partial.
Print Assumptions C57_one_successor_partial.
Print Assumptions C57_python_partial.
Print Assumptions C57_order_free_refuted.
