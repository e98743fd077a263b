(** * Properties of complete TSP calls, from the Python cost matrix to the output buffers:
    C13, C25, C30 (TSP), C44, C45, C46. *)
From Coq Require Import Permutation.
From Verif Require Import Num NumFacts Arr ArrFacts Spec SpecGraph P_Tsp_Constraints P_Equality.
From Verif Require Import P_Kc_Trellis P_Ksat M_InOut P_InOut T_InOut M_Runs P_Runs.
From Verif Require Import M_Tsp_Loops P_Tsp_Loops M_Tsp_Run P_Tsp_Run P_Tsp_Fin M_Tsp_Py P_Tsp_Py T_Tsp_Run.
Local Open Scope nat_scope.

Definition finite (x : num) : Prop := exists q, x = Fin q.
Definition finite_rows (m : list (list num)) : Prop := Forall (Forall finite) m.
(** every number held by the solver *)
Definition all_finite (st : tsp_state) : Prop :=
  let m := t_msgs st in
  finite_rows (m_e2d m) /\ finite_rows (m_deg_dummy m) /\ finite_rows (m_deg_old m) /\ finite_rows (m_deg m)
  /\ finite_rows (m_sub_dummy m) /\ finite_rows (m_sub_old m) /\ finite_rows (m_sub m)
  /\ Forall finite (r_extr (t_sol st)) /\ Forall finite (r_intr (t_sol st)) /\ finite (r_cost (t_sol st)).
Lemma finv_finite : forall n v, finv n v -> Forall finite v.
Proof.
  intros n v (q & _ & ->). apply Forall_forall; intros x I. apply in_map_iff in I as (y & <- & _). exists y; reflexivity.
Qed.
Lemma finm_finite : forall n k m, finm n k m -> finite_rows m.
Proof.
  intros n k m (Q & _ & ->). apply Forall_forall; intros r I. apply in_map_iff in I as (y & <- & _).
  apply (finv_finite (length y)). exists y; auto.
Qed.
Lemma fin_state_finite : forall p S st, fin_state p S st -> all_finite st.
Proof.
  intros p S st ((F1 & F2 & F3 & F4 & F5 & F6 & (N & F7)) & Fx & Fi & (q & Fc) & _).
  unfold all_finite. repeat split; eauto using finm_finite, finv_finite. exists q; exact Fc.
Qed.

(** the C++ call that Python makes for a cost matrix: [None] if building or reading the arrays goes
    out of range *)
Definition py_call (o : tsp_options) (n : nat) (cm : list (list num)) (ord : list nat -> list nat)
  : option tsp_params :=
  let E := py_edges cm in
  ' (ce, m) <- py_tsp_arrays n cm E ;;
  inp <- tsp_process_inputs n (py_num_edges n) (flat_edges E) ce (concat cm) (concat m) (concat m) ;;
  Some (call_params (q_iters o) n (py_num_edges n) (q_aug o) (q_reset o) (q_filt o) (q_alpha o) (q_thr o)
          (q_max_count o) inp ord).
(** output arrays allocated by Python: Impa.py:136-139, 303, 321 *)
Definition py_outputs (n : nat) (p : tsp_params) (st : tsp_state) : option tsp_result :=
  process_outputs p st (repeat n0 (py_num_edges n)) (repeat 0 (n + 1)) (repeat 0 (n * (n - 1) / 2))
    (repeat 0 (n * n)) (repeat 0 (n * n)).
(** [py_run_tsp] is these pieces put together *)
Lemma py_run_eq : forall fuel o n cm ord, py_run_tsp fuel o n cm ord =
  (p <- py_call o n cm ord ;;
   out <- tsp_solve fuel p (q_max_augm o) ;;
   match out with
   | Returned st => r <- py_outputs n p st ;; Some (Done r)
   | Exited => Some Killed
   | Running _ => Some Unfinished
   end).
Proof.
  intros fuel o n cm ord. unfold py_run_tsp, py_call, wrapper_tsp.
  destruct (py_tsp_arrays _ _ _) as [(ce & m)|]; cbn [bind]; [|reflexivity].
  destruct (tsp_process_inputs _ _ _ _ _ _ _) as [inp|]; cbn [bind]; reflexivity.
Qed.

Lemma py_call_ok : forall o n C ord, cost_matrix_ok n C ->
  exists p M, py_call o n (inj C) ord = Some p /\ p_n p = n /\ p_e p = py_num_edges n
    /\ complete n (tsp_edges (p_in p)) /\ length (tsp_edges (p_in p)) = py_num_edges n
    /\ tsp_cost_edge (p_in p) = map (fun e => Fin (qat C (fst e) (snd e))) (tsp_edges (p_in p))
    /\ tsp_cost_matrix (p_in p) = inj C /\ tsp_degree_cost (p_in p) = inj M
    /\ tsp_edge2degree (p_in p) = inj M /\ shape (py_num_edges n) n M
    /\ p_alpha p = q_alpha o /\ p_thr p = q_thr o /\ p_ord p = ord /\ p_aug p = q_aug o
    /\ p_max_count p = q_max_count o /\ tsp_edges (p_in p) = py_edges (inj C).
Proof.
  intros o n C ord H. set (E := py_edges (inj C)). pose proof (py_edges_complete n C H) as Co. fold E in Co.
  pose proof (complete_length _ _ Co) as L.
  destruct (py_arrays_ok n C E) as (c & M & A & Lc & SM & Ec & _).
  - apply H.
  - exact (complete_edges_in n E Co).
  - exact (complete_no_self n E Co).
  - exact L.
  - unfold py_call. fold E. rewrite A. cbn [bind]. unfold py_num_edges in *. rewrite <- L.
    rewrite C26_tsp_inputs by (rewrite ?map_length; auto using shape_inj; apply shape_inj; apply H). cbn [bind].
    eexists _, M. split; [reflexivity|]. cbn. rewrite Ec, map_map. repeat (split; [solve [auto]|]). auto.
Qed.

(** ** C13 *)

(** For a cost matrix with a zero diagonal and no other zero, on at least three nodes: building the
    arrays in Python, reading them in C++ and running the solver for any number of iterations and
    rounds never touches an element out of range ([Some]), and every message and output is finite in
    every state the run goes through.  The process is not terminated because of a NaN: the only
    termination is the one for a selection of cost zero. *)
Theorem C13_tsp_safe : forall fuel o n C ord,
  3 <= n -> cost_matrix_ok n C -> finite (q_alpha o) -> (forall l, Permutation (ord l) l) ->
  exists p out,
    py_call o n (inj C) ord = Some p
    /\ tsp_solve fuel p (q_max_augm o) = Some out
    /\ (forall st l, history p (st :: l) -> all_finite st)
    /\ match out with
       | Returned st | Running st => all_finite st
       | Exited => exists st l, history p (st :: l) /\ r_cost (t_sol st) = n0
       end.
Proof.
  intros fuel o n C ord Hn HC Ha Po.
  destruct (py_call_ok o n C ord HC) as (p & M & A & En & Ee & Co & L & Ec & Em & Ed & Ed' & SM & Ea & _ & Eo & _).
  exists p. rewrite <- En in Hn, Co. rewrite <- Ee in L. rewrite <- Ea in Ha. rewrite <- Eo in Po.
  assert (W3 : finv (p_e p) (tsp_cost_edge (p_in p))).
  { rewrite Ec. eexists. rewrite <- (map_map (fun e => qat C (fst e) (snd e)) Fin). split; [|reflexivity].
    rewrite map_length; exact L. }
  assert (W4 : finm (p_n p) (p_n p) (tsp_cost_matrix (p_in p))) by (rewrite En; exists C; split; [apply HC|exact Em]).
  assert (W5 : finm (p_e p) (p_n p) (tsp_degree_cost (p_in p))) by (rewrite En, Ee; exists M; auto).
  assert (W6 : finm (p_e p) (p_n p) (tsp_edge2degree (p_in p))) by (rewrite En, Ee; exists M; auto).
  destruct (solve_total p Hn Co L Ha W3 W4 W5 W6 Po fuel (q_max_augm o)) as (out & R & X).
  exists out. split; [exact A|]. split; [exact R|]. split.
  - intros st l H. destruct (history_fin p Hn Co L Ha W3 W4 W5 W6 Po st l H) as (S & F & _).
    exact (fin_state_finite _ _ _ F).
  - destruct out as [st| |st].
    + destruct (solve_fin p Hn Co L Ha W3 W4 W5 W6 Po fuel (q_max_augm o) st) as (S & F & _); [left; exact R|].
      exact (fin_state_finite _ _ _ F).
    + destruct (X eq_refl) as (st & l & H & Z & _). exists st, l; auto.
    + destruct (solve_fin p Hn Co L Ha W3 W4 W5 W6 Po fuel (q_max_augm o) st) as (S & F & _); [right; exact R|].
      exact (fin_state_finite _ _ _ F).
Qed.
Definition mat (cm : list (list Z)) : list (list Qc) := map (map (fun z => Q2Qc (inject_Z z))) cm.
Definition opt (iters : nat) (filt : bool) (max_count max_augm : Z) : tsp_options :=
  {| q_iters := iters; q_aug := true; q_reset := true; q_filt := filt; q_alpha := Fin (Q2Qc (1 # 2));
     q_thr := thr4; q_max_count := max_count; q_max_augm := max_augm |}.
Definition solved (fuel : nat) (o : tsp_options) (n : nat) (C : list (list Qc)) : option outcome :=
  p <- py_call o n (inj C) (fun l => l) ;; tsp_solve fuel p (q_max_augm o).
Definition cm4 := mat [[0; 1; 8; 6]; [2; 0; 2; 7]; [4; 8; 0; 3]; [7; 6; 2; 0]]%Z.
Ltac check_matrix :=
  split; [split; [reflexivity|repeat constructor]|]; split;
  [ intros u Hu; do 5 (try destruct u as [|u]); try lia; reflexivity
  | intros u v Hu Hv N; do 5 (try destruct u as [|u]); try lia; do 5 (try destruct v as [|v]); try lia;
    intros Q; apply (f_equal this) in Q; vm_compute in Q; discriminate ].
Lemma cm4_ok : cost_matrix_ok 4 cm4.
Proof. check_matrix. Qed.
(** with filtering on, the run takes two rounds and adds three constraints *)
Example C13_example : cost_matrix_ok 4 cm4 /\ finite (q_alpha (opt 4 true 20 3)) /\
  option_map (fun x => (snd (fst x), length (snd x))) (seen (solved 60 (opt 4 true 20 3) 4 cm4)) = Some (2, 3).
Proof. split; [exact cm4_ok|]. split; [eexists; reflexivity|]. vm_compute. reflexivity. Qed.

(** ** C25 *)

(** Full statement: whatever a call computes fits into the arrays allocated by Python.  False: on
    three or four nodes no tour fits, because [comb(n, 2)] integers are allocated for the end points
    of the [n] (or more) selected edges. *)
Theorem C25_small_tour_overflows : forall fuel p max st n,
  (forall l, Permutation (p_ord p l) l) -> edges_in n (tsp_edges (p_in p)) -> p_n p = n ->
  n = 3 \/ n = 4 ->
  tsp_solve fuel p max = Some (Returned st) -> a_tour_flag (t_an st) = true ->
  py_outputs n p st = None.
Proof.
  intros fuel p max st n Po He En Hn R F. rewrite <- En in He.
  destruct (C18_tour_is_hamiltonian _ _ _ _ Po He R) as (_ & _ & T). destruct (T F) as (t & x & Et & _ & Nt & Ht & Pt).
  assert (Lt : length t = p_n p).
  { rewrite <- (seq_length (p_n p) 0). apply Permutation_length, NoDup_Permutation; [exact Nt|apply seq_NoDup|].
    intros u; rewrite Ht, in_seq. lia. }
  assert (Ls : p_n p <= length (r_selected (t_sol st))).
  { rewrite <- Lt. rewrite <- (steps_sources t x) at 1. rewrite map_length.
    apply NoDup_incl_length; [now apply steps_nodup|]. intros (u & v) I; apply Pt, in_steps, I. }
  unfold py_outputs, process_outputs.
  destruct (slice _ _ _) as [xs|]; cbn [bind]; [|reflexivity]. destruct (copy_into xs _); cbn [bind]; [|reflexivity].
  unfold write_outputs. destruct (copy_into (a_tour _) _); cbn [bind]; [|reflexivity].
  replace (copy_into (flat_edges (r_selected (t_sol st))) (repeat 0 (n * (n - 1) / 2))) with (@None (list nat)); [reflexivity|].
  unfold copy_into. rewrite repeat_length.
  assert (Lf : length (flat_edges (r_selected (t_sol st))) = 2 * length (r_selected (t_sol st))).
  { unfold flat_edges. clear. induction (r_selected (t_sol st)) as [|e l IH]; cbn in *; lia. }
  destruct (Nat.leb_spec (length (flat_edges (r_selected (t_sol st)))) (n * (n - 1) / 2)) as [B|B]; [|reflexivity].
  exfalso. rewrite Lf in B. destruct Hn as [Q|Q]; rewrite Q in *; cbn in B; lia.
Qed.
Theorem C25_buffers_refuted : exists o n C, cost_matrix_ok n C /\ 3 <= n /\
  (exists st, solved 60 o n C = Some (Returned st) /\ a_tour_flag (t_an st) = true)
  /\ py_run_tsp 60 o n (inj C) (fun l => l) = None.
Proof.
  exists (opt 10 false 20 50), 4, cm4. split; [exact cm4_ok|]. split; [lia|].
  assert (X : match solved 60 (opt 10 false 20 50) 4 cm4 with
              | Some (Returned st) => a_tour_flag (t_an st) | _ => false end = true) by (vm_compute; reflexivity).
  rewrite py_run_eq. unfold solved in *.
  destruct (py_call_ok (opt 10 false 20 50) 4 cm4 (fun l => l) cm4_ok) as (p & M & A & En & _ & Co & _ & _ & _ & _ & _ & _ & _ & _ & Eo & _).
  rewrite A in X. rewrite A. cbn [bind] in X |- *. cbn [q_max_augm opt] in X |- *.
  destruct (tsp_solve 60 p 50) as [[st| |st]|] eqn:R; try discriminate X. split; [exists st; auto|].
  cbn [bind]. rewrite (C25_small_tour_overflows 60 p 50 st 4); auto.
  - rewrite Eo; auto.
  - exact (complete_edges_in 4 _ Co).
Qed.
(** What holds.  The arrays for the tour, for the sizes of the loops and for the extrinsic values are
    always large enough; so the call succeeds exactly when the selected edges and the nodes of the
    loops fit.  In particular it succeeds on five or more nodes if at most [n] edges are selected
    (for instance whenever the selected edges are those of a tour). *)
Theorem C25_buffers_partial : forall fuel o n C ord p st,
  3 <= n -> cost_matrix_ok n C -> finite (q_alpha o) -> (forall l, Permutation (ord l) l) ->
  py_call o n (inj C) ord = Some p ->
  tsp_solve fuel p (q_max_augm o) = Some (Returned st) ->
  length (a_tour (t_an st)) <= n + 1 /\ length (a_sizes (t_an st)) <= n * n
  /\ length (r_extr (t_sol st)) = py_num_edges n
  /\ (py_outputs n p st <> None <->
        2 * length (r_selected (t_sol st)) <= n * (n - 1) / 2
        /\ length (concat (a_paths (t_an st))) <= n * n)
  /\ (5 <= n -> length (r_selected (t_sol st)) <= n -> py_outputs n p st <> None).
Proof.
  intros fuel o n C ord p st Hn HC Ha Po Hp R.
  destruct (py_call_ok o n C ord HC) as (p' & M & A & En & Ee & Co & L & Ec & Em & Ed & Ed' & SM & Ea & _ & Eo & _).
  assert (Epp : p' = p) by congruence; rewrite Epp in *; clear p' Epp.
  rewrite <- En in Co. rewrite <- Ee in L. rewrite <- Ea in Ha. rewrite <- Eo in Po.
  assert (He : edges_in (p_n p) (tsp_edges (p_in p))) by exact (complete_edges_in _ _ Co).
  destruct (C18_tour_is_hamiltonian _ _ _ _ Po He R) as (Inc & T0 & T1).
  pose proof (solve_history _ _ _ _ R) as (l & st0 & H & S).
  assert (Q : t_sol st = t_sol st0 /\ t_an st = t_an st0).
  { destruct S as [(-> & _)| ->]; [auto|]. destruct (grow_fields p st0) as (X & Y & _); auto. }
  destruct Q as (Q1 & Q2).
  assert (B1 : length (a_tour (t_an st)) <= n + 1).
  { destruct (a_tour_flag (t_an st)); [|rewrite T0; cbn; [lia|reflexivity]].
    destruct T1 as (t & x & Et & _ & Nt & Ht & _); [reflexivity|]. rewrite Et, app_length. cbn.
    assert (Lt : length t = p_n p).
    { rewrite <- (seq_length (p_n p) 0). apply Permutation_length, NoDup_Permutation; [exact Nt|apply seq_NoDup|].
      intros u; rewrite Ht, in_seq. lia. }
    lia. }
  destruct (history_open _ _ _ H) as ((a0 & _ & An) & _). destruct (analyse_inv _ _ _ _ An) as (loops & G & Pa & Cs).
  pose proof (loops_count _ _ _ Po G) as Lc.
  assert (Nsel : length (r_selected (t_sol st0)) <= n * n).
  { destruct (history_open _ _ _ H) as (_ & (D & _) & _).
    rewrite (select_ok _ _ _ _ (history_intr _ _ _ H) L) in D. injection D as <-.
    rewrite map_length. unfold chosen. pose proof (filter_partition_length (fun i => negb (ngt (nth i (r_intr (t_sol st0)) n0) (p_thr p)))
      (seq 0 (length (r_intr (t_sol st0))))) as Q. rewrite seq_length in Q.
    rewrite (history_intr _ _ _ H), Ee in *. unfold py_num_edges in *. lia. }
  assert (B2 : length (a_sizes (t_an st)) <= n * n).
  { rewrite Q2. destruct Cs as [_ _ _ _ _ Sz _ _|h _ _ _ _ _ _ Sz _ _|_ _ _ _ _ _ Sz _ _]; rewrite Sz; cbn; try lia.
    rewrite map_length. lia. }
  assert (B3 : length (r_extr (t_sol st)) = py_num_edges n).
  { assert (W3 : finv (p_e p) (tsp_cost_edge (p_in p))).
    { rewrite Ec. eexists. rewrite <- (map_map (fun e => qat C (fst e) (snd e)) Fin). split; [|reflexivity].
      rewrite map_length; exact L. }
    assert (W4 : finm (p_n p) (p_n p) (tsp_cost_matrix (p_in p))) by (rewrite En; exists C; split; [apply HC|exact Em]).
    assert (W5 : finm (p_e p) (p_n p) (tsp_degree_cost (p_in p))) by (rewrite En, Ee; exists M; auto).
    assert (W6 : finm (p_e p) (p_n p) (tsp_edge2degree (p_in p))) by (rewrite En, Ee; exists M; auto).
    assert (Hn' : 3 <= p_n p) by lia.
    destruct (solve_fin p Hn' Co L Ha W3 W4 W5 W6 Po fuel (q_max_augm o) st (or_introl R)) as (S0 & (_ & Fx & _) & _).
    rewrite (finv_length _ _ Fx). exact Ee. }
  assert (Iff : py_outputs n p st <> None <->
        2 * length (r_selected (t_sol st)) <= n * (n - 1) / 2 /\ length (concat (a_paths (t_an st))) <= n * n).
  { assert (Lf : length (flat_edges (r_selected (t_sol st))) = 2 * length (r_selected (t_sol st))).
    { unfold flat_edges. clear. induction (r_selected (t_sol st)) as [|e l IH]; cbn in *; lia. }
    unfold py_outputs, process_outputs. rewrite (slice_all _ (p_e p)) by congruence. cbn [bind].
    unfold copy_into at 1. rewrite repeat_length, B3, Nat.leb_refl. cbn [bind]. unfold write_outputs, copy_into.
    rewrite !repeat_length, Lf. apply Nat.leb_le in B1, B2. rewrite B1, B2. cbn [bind].
    destruct (Nat.leb_spec (2 * length (r_selected (t_sol st))) (n * (n - 1) / 2)) as [X|X]; cbn [bind].
    - destruct (Nat.leb_spec (length (concat (a_paths (t_an st)))) (n * n)) as [Y|Y]; cbn [bind].
      + split; [auto|discriminate].
      + split; [congruence|lia].
    - split; [congruence|lia]. }
  repeat (split; [assumption|]). intros H5 Hs. apply Iff. split.
  - apply Nat.le_trans with (2 * n); [lia|]. apply Nat.div_le_lower_bound; [lia|]. nia.
  - rewrite Q1 in Hs. rewrite Q2, Pa. eapply Nat.le_trans; [apply (concat_bound _ n)|nia].
    apply Forall_forall. intros lp Il. rewrite (loops_eq _ Po) in G. injection G as G. rewrite <- G in Il.
    pose proof (keep_cycle _ _ _ Il) as Cy.
    assert (He' : forall u v, In (u, v) (r_selected (t_sol st0)) -> u < n /\ v < n).
    { intros u v I. rewrite <- Q1 in I. apply Inc, (proj2 Co) in I. lia. }
    pose proof (NoDup_incl_length (proj1 Cy) (cycle_incl_nodes _ _ _ He' Cy)) as B. rewrite seq_length in B. exact B.
Qed.
Definition cm5 := mat [[0; 1; 9; 8; 7]; [8; 0; 2; 9; 6]; [8; 9; 0; 1; 9]; [9; 6; 9; 0; 3]; [2; 6; 9; 7; 0]]%Z.
Example C25_example : cost_matrix_ok 5 cm5 /\
  match py_run_tsp 60 (opt 10 false 20 50) 5 (inj cm5) (fun l => l) with
  | Some (Done r) => to_tour (o_arrays r) = [1; 2; 3; 4; 0; 1] /\ length (to_edges (o_arrays r)) = 10
  | _ => False end.
Proof. split; [check_matrix|]. vm_compute. split; reflexivity. Qed.

(** ** C44 *)

(** Full statement: a solver call always comes back to Python.  False: on this complete graph with
    positive costs the first selection is empty, its cost is zero, and the library calls [exit(0)]. *)
Definition cm3 := mat [[0; 4; 2]; [4; 0; 8]; [6; 9; 0]]%Z.
Lemma cm3_ok : cost_matrix_ok 3 cm3.
Proof. check_matrix. Qed.
Theorem C44_returns_refuted : exists o n C, 3 <= n /\ cost_matrix_ok n C
  /\ (forall u v, u < n -> v < n -> u <> v -> (0 < qat C u v)%Qc)
  /\ py_run_tsp 60 o n (inj C) (fun l => l) = Some Killed.
Proof.
  exists (opt 2 false 20 50), 3, cm3. split; [lia|]. split; [exact cm3_ok|]. split.
  - intros u v Hu Hv N; do 3 (try destruct u as [|u]); try lia; do 3 (try destruct v as [|v]); try lia; reflexivity.
  - vm_compute. reflexivity.
Qed.
(** What holds: with positive costs the process ends only after a round that selected no edge at all
    while still below the count limits. *)
Theorem C44_returns_partial : forall fuel o n C ord p,
  3 <= n -> cost_matrix_ok n C -> finite (q_alpha o) -> (forall l, Permutation (ord l) l) ->
  (forall u v, u < n -> v < n -> u <> v -> (0 < qat C u v)%Qc) ->
  py_call o n (inj C) ord = Some p ->
  tsp_solve fuel p (q_max_augm o) = Some Exited ->
  exists st l, history p (st :: l) /\ r_selected (t_sol st) = [].
Proof.
  intros fuel o n C ord p Hn HC Ha Po Pos Hp R.
  destruct (C13_tsp_safe fuel o n C ord Hn HC Ha Po) as (p' & out & A & R' & _ & X).
  rewrite Hp in A; injection A as <-. rewrite R in R'; injection R' as <-. destruct X as (st & l & H & Z).
  exists st, l. split; [exact H|].
  destruct (py_call_ok o n C ord HC) as (p' & M & A & En & Ee & Co & L & Ec & _).
  rewrite Hp in A; injection A as <-. rewrite <- Ee in L.
  destruct (history_open _ _ _ H) as (_ & (D1 & D2) & _).
  assert (I : incl (r_selected (t_sol st)) (tsp_edges (p_in p))) by exact (select_incl _ _ _ _ D1).
  rewrite (select_ok _ _ _ _ (history_intr _ _ _ H) L) in D1. injection D1 as D1.
  rewrite Ec, <- (map_map (fun e => qat C (fst e) (snd e)) Fin) in D2.
  rewrite (cost_ok _ _ _ (p_e p) (history_intr _ _ _ H)) in D2 by (rewrite map_length; exact L).
  injection D2 as D2. rewrite Z in D2. injection D2 as D2.
  assert (E : map (fun i => nth i (map (fun e => qat C (fst e) (snd e)) (tsp_edges (p_in p))) 0%Qc) (chosen (p_thr p) (r_intr (t_sol st)))
            = map (fun e => qat C (fst e) (snd e)) (r_selected (t_sol st))).
  { rewrite <- D1, map_map. apply map_ext_in. intros i Hi.
    rewrite <- (map_nth (fun e => qat C (fst e) (snd e))). apply nth_indep.
    rewrite map_length, L. unfold chosen in Hi. apply filter_In in Hi. destruct Hi as (Hi & _).
    apply in_seq in Hi. rewrite (history_intr _ _ _ H) in Hi. lia. }
  rewrite E in D2. destruct (r_selected (t_sol st)) as [|e s] eqn:S; [reflexivity|exfalso].
  assert (P : forall s, incl s (tsp_edges (p_in p)) -> (0 <= qsum (map (fun e => qat C (fst e) (snd e)) s))%Qc).
  { induction s0 as [|f s0 IH]; intros J; [vm_compute; discriminate|]. cbn [map]. rewrite qsum_cons.
    assert (0 < qat C (fst f) (snd f))%Qc.
    { destruct f as (a & b). assert (In (a, b) (tsp_edges (p_in p))) by (apply J; now left).
      apply (proj2 Co) in H0. cbn [fst snd]. apply Pos; lia. }
    assert (0 <= qsum (map (fun e => qat C (fst e) (snd e)) s0))%Qc by (apply IH; intros x Hx; apply J; now right).
    qlra. }
  cbn [map] in D2. rewrite qsum_cons in D2.
  assert (0 < qat C (fst e) (snd e))%Qc.
  { destruct e as (a & b). assert (In (a, b) (tsp_edges (p_in p))) by (apply I; now left).
    apply (proj2 Co) in H0. cbn [fst snd]. apply Pos; lia. }
  assert (0 <= qsum (map (fun e => qat C (fst e) (snd e)) s))%Qc by (apply P; intros x Hx; apply I; now right).
  assert (qat C (fst e) (snd e) + qsum (map (fun e => qat C (fst e) (snd e)) s) = 0)%Qc by exact D2.
  qlra.
Qed.
(** the hypotheses are met by the run above *)
Example C44_example : solved 60 (opt 2 false 20 50) 3 cm3 = Some Exited /\ 
  option_map (fun p => option_map (fun st => r_selected (t_sol st)) (iterate_relaxed p (tsp_init p)))
    (py_call (opt 2 false 20 50) 3 (inj cm3) (fun l => l)) = Some (Some []).
Proof. vm_compute. split; reflexivity. Qed.

(** ** C45 *)

(** Full statement: the reported number of added constraints is the number of subtour constraints in
    the model.  False: when the round limit stops the call, constraints found by the last round are
    not counted. *)
Theorem C45_count_refuted : exists o n C st,
  cost_matrix_ok n C /\ solved 60 o n C = Some (Returned st)
  /\ length (m_sub (t_msgs st)) = 2 /\ length (a_deltas (t_an st)) = 3.
Proof.
  exists (opt 4 true 20 1), 4, cm4.
  assert (X : match solved 60 (opt 4 true 20 1) 4 cm4 with
              | Some (Returned st) => (length (m_sub (t_msgs st)) =? 2) && (length (a_deltas (t_an st)) =? 3)
              | _ => false end = true) by (vm_compute; reflexivity).
  destruct (solved 60 (opt 4 true 20 1) 4 cm4) as [[st| |st]|] eqn:R; try discriminate X.
  exists st. apply andb_prop in X. rewrite !Nat.eqb_eq in X. split; [exact cm4_ok|]. tauto.
Qed.
(** What holds: the reported number is the number of constraints whenever augmentation is on and the
    call was not stopped by the round limit. *)
Theorem C45_count_partial : forall fuel o n C ord p st r,
  3 <= n -> cost_matrix_ok n C -> finite (q_alpha o) -> (forall l, Permutation (ord l) l) ->
  py_call o n (inj C) ord = Some p ->
  tsp_solve fuel p (q_max_augm o) = Some (Returned st) ->
  py_outputs n p st = Some r ->
  q_aug o = true -> Z.of_nat (o_num_aug r) <> q_max_augm o ->
  o_num_constraints r = length (a_deltas (t_an st)).
Proof.
  intros fuel o n C ord p st r Hn HC Ha Po Hp R O Au Nm.
  assert (Q : o_num_constraints r = length (m_sub (t_msgs st)) /\ o_num_aug r = c_num_aug (t_cnt st)).
  { unfold py_outputs, process_outputs in O.
    destruct (slice _ _ _); cbn [bind] in O; [|discriminate]. destruct (copy_into _ _); cbn [bind] in O; [|discriminate].
    destruct (write_outputs _ _ _ _ _ _ _ _); cbn [bind] in O; [|discriminate]. injection O as <-. auto. }
  destruct Q as (Q1 & Q2). rewrite Q1. rewrite Q2 in Nm.
  destruct (py_call_ok o n C ord HC) as (p' & M & A & En & Ee & Co & L & Ec & Em & Ed & Ed' & SM & Ea & _ & Eo & Eau & _).
  rewrite Hp in A; injection A as <-.
  rewrite <- En in Co. rewrite <- Ee in L. rewrite <- Ea in Ha. rewrite <- Eo in Po.
  assert (W3 : finv (p_e p) (tsp_cost_edge (p_in p))).
  { rewrite Ec. eexists. rewrite <- (map_map (fun e => qat C (fst e) (snd e)) Fin). split; [|reflexivity].
    rewrite map_length; exact L. }
  assert (W4 : finm (p_n p) (p_n p) (tsp_cost_matrix (p_in p))) by (rewrite En; exists C; split; [apply HC|exact Em]).
  assert (W5 : finm (p_e p) (p_n p) (tsp_degree_cost (p_in p))) by (rewrite En, Ee; exists M; auto).
  assert (W6 : finm (p_e p) (p_n p) (tsp_edge2degree (p_in p))) by (rewrite En, Ee; exists M; auto).
  assert (Hn' : 3 <= p_n p) by lia.
  pose proof (solve_history _ _ _ _ R) as (l & st0 & H & [(-> & [X|[X|(-> & Sa)]])| ->]).
  - contradiction.
  - congruence.
  - inversion H as [? Rl|]; subst. rewrite (relaxed_sub _ _ Rl).
    destruct (relaxed_inv _ _ _ Rl) as (_ & An & _). destruct (analyse_inv _ _ _ _ An) as (loops & _ & _ & [ ]).
    + now replace (a_deltas (t_an st0)) with (@nil (list nat)).
    + now replace (a_deltas (t_an st0)) with (@nil (list nat)).
    + exfalso. cbn in *. congruence.
  - destruct (history_fin p Hn' Co L Ha W3 W4 W5 W6 Po st0 l H) as (S & F & Le).
    pose proof (grow_fin p Hn' L S st0 F Le) as ((_ & _ & _ & _ & F5 & _) & _).
    destruct (grow_fields p st0) as (_ & -> & _). exact (finm_length _ _ _ F5).
Qed.
(** two subtours excluded in one round, well below the limit *)
Definition cm5b := mat [[0; 1; 7; 8; 6]; [2; 0; 9; 5; 8]; [7; 9; 0; 1; 8]; [9; 6; 9; 0; 3]; [9; 6; 2; 7; 0]]%Z.
Example C45_example : cost_matrix_ok 5 cm5b /\
  match (p <- py_call (opt 5 true 20 9) 5 (inj cm5b) (fun l => l) ;;
         out <- tsp_solve 60 p 9 ;;
         match out with Returned st => r <- py_outputs 5 p st ;; Some (st, r) | _ => None end) with
  | Some (st, r) => o_num_constraints r = 2 /\ o_num_aug r = 1
  | None => False
  end.
Proof. split; [check_matrix|].  vm_compute. split; reflexivity. Qed.

(** ** C46 *)

Lemma mapM_None : forall {A B} (f : A -> option B) l x, In x l -> f x = None -> mapM f l = None.
Proof.
  intros A B f l x I F; induction l as [|y l IH]; [destruct I|]. cbn. destruct I as [->|I]; [now rewrite F|].
  destruct (f y); cbn; [now rewrite IH|reflexivity].
Qed.
(** Full statement: any finite cost matrix with a zero diagonal can be solved.  False: edges are found
    with [np.nonzero], so an edge of cost zero is dropped, while the number of edges handed to C++ is
    still [n * n - n]; reading the edge list then runs past its end. *)
Theorem C46_zero_cost_overrun : forall fuel o n C ord u v,
  shape n n C -> (forall u, u < n -> qat C u u = 0%Qc) ->
  u < n -> v < n -> u <> v -> qat C u v = 0%Qc ->
  py_run_tsp fuel o n (inj C) ord = None.
Proof.
  intros fuel o n C ord u v HC HD Hu Hv N Z. rewrite py_run_eq. unfold py_call.
  destruct (py_tsp_arrays _ _ _) as [(ce & m)|]; cbn [bind]; [|reflexivity].
  replace (tsp_process_inputs _ _ _ _ _ _ _) with (@None tsp_inputs); [reflexivity|].
  assert (S : shape n n (inj C)) by (apply shape_inj; exact HC).
  assert (L : length (py_edges (inj C)) < py_num_edges n).
  { set (K := filter (fun e => negb (fst e =? snd e)) (list_prod (seq 0 n) (seq 0 n))).
    assert (CK : complete n K).
    { split; [apply NoDup_filter, list_prod_nodup; apply seq_NoDup|]. intros a b. unfold K.
      rewrite filter_In, in_prod_iff, !in_seq, negb_true_iff, Nat.eqb_neq. cbn. lia. }
    unfold py_num_edges. rewrite <- (complete_length n K CK).
    assert (X : length ((u, v) :: py_edges (inj C)) <= length K).
    { apply NoDup_incl_length.
      - constructor; [|exact (py_edges_nodup n _ S)]. intros I. apply (in_py_edges n) in I; [|exact S].
        rewrite (nth_inj n) in I by auto. rewrite Z in I. destruct I as (_ & _ & I). discriminate.
      - intros (a & b) [Q|I]; apply (proj2 CK); [injection Q as <- <-; auto|].
        apply (in_py_edges n) in I; [|exact S]. destruct I as (Ha & Hb & I). repeat split; auto. intros <-.
        rewrite (nth_inj n) in I by auto. rewrite HD in I by auto. discriminate. }
    cbn [length] in X. lia. }
  unfold tsp_process_inputs. destruct (slice ce 0 (py_num_edges n)); cbn [bind]; [|reflexivity].
  replace (read_rows 0 (py_num_edges n) 2 (flat_edges (py_edges (inj C)))) with (@None (list (list nat))); [reflexivity|].
  symmetry. unfold read_rows.
  assert (Lf : length (flat_edges (py_edges (inj C))) = 2 * length (py_edges (inj C))).
  { unfold flat_edges. clear. induction (py_edges (inj C)) as [|e l IH]; cbn in *; lia. }
  assert (X : In (length (py_edges (inj C))) (seq 0 (py_num_edges n))) by (apply in_seq; lia).
  apply (mapM_None _ _ _ X). unfold slice. rewrite Lf.
  destruct (Nat.leb_spec (2 * (length (py_edges (inj C)) + 1)) (2 * length (py_edges (inj C)))); [lia|].
  rewrite andb_false_r. reflexivity.
Qed.
Definition cm3z := mat [[0; 4; 2]; [4; 0; 0]; [6; 9; 0]]%Z.
Theorem C46_any_finite_refuted : exists o n C, 3 <= n /\ shape n n C
  /\ (forall u, u < n -> qat C u u = 0%Qc)
  /\ (forall u v, u < n -> v < n -> (0 <= qat C u v)%Qc)
  /\ py_run_tsp 60 o n (inj C) (fun l => l) = None.
Proof.
  exists (opt 2 false 20 50), 3, cm3z.
  assert (S : shape 3 3 cm3z) by (split; [reflexivity|repeat constructor]).
  assert (D : forall u, u < 3 -> qat cm3z u u = 0%Qc) by (intros u Hu; do 3 (try destruct u as [|u]); try lia; reflexivity).
  split; [lia|]. split; [exact S|]. split; [exact D|]. split.
  - intros u v Hu Hv; do 3 (try destruct u as [|u]); try lia; do 3 (try destruct v as [|v]); try lia;
      vm_compute; discriminate.
  - apply (C46_zero_cost_overrun _ _ _ _ _ 1 2); auto; try lia.
Qed.
(** What holds: with no zero off the diagonal all the input arrays are read in full, and the edges and
    costs the solver works with are exactly those of the matrix. *)
Theorem C46_inputs_partial : forall o n C ord, cost_matrix_ok n C ->
  exists p, py_call o n (inj C) ord = Some p
    /\ (forall u v, In (u, v) (tsp_edges (p_in p)) <-> u < n /\ v < n /\ u <> v)
    /\ NoDup (tsp_edges (p_in p))
    /\ tsp_cost_matrix (p_in p) = inj C
    /\ (forall i u v, nth_error (tsp_edges (p_in p)) i = Some (u, v) ->
          nth_error (tsp_cost_edge (p_in p)) i = Some (Fin (qat C u v))).
Proof.
  intros o n C ord HC. destruct (py_call_ok o n C ord HC) as (p & M & A & En & Ee & Co & L & Ec & Em & _).
  exists p. split; [exact A|]. split; [apply Co|]. split; [apply Co|]. split; [exact Em|].
  intros i u v G. rewrite Ec, nth_error_map, G. reflexivity.
Qed.
Example C46_example : option_map (fun p => tsp_edges (p_in p)) (py_call (opt 4 true 20 9) 3 (inj cm3) (fun l => l))
  = Some [(0, 1); (0, 2); (1, 0); (1, 2); (2, 0); (2, 1)].
Proof. vm_compute. reflexivity. Qed.

Print Assumptions C13_tsp_safe.
Print Assumptions C25_small_tour_overflows.
Print Assumptions C25_buffers_refuted.
Print Assumptions C25_buffers_partial.
Print Assumptions C44_returns_refuted.
Print Assumptions C44_returns_partial.
Print Assumptions C45_count_refuted.
Print Assumptions C45_count_partial.
Print Assumptions C46_zero_cost_overrun.
Print Assumptions C46_any_finite_refuted.
Print Assumptions C46_inputs_partial.
