(** * Properties of TSP post-processing: C27, C28, C29. *)
From Coq Require Import Permutation.
From Verif Require Import Num NumFacts Arr ArrFacts Spec SpecGraph SpecTour P_Tsp_Constraints P_InOut P_Runs.
From Verif Require Import M_InOut M_Tsp_Loops P_Tsp_Loops M_Tsp_Run P_Tsp_Run P_Tsp_Fin M_Tsp_Py P_Tsp_Py T_Tsp_Run T_Tsp_Loops.
From Verif Require Import P_Ksat_Py T_Tsp_Call M_Tsp_Post P_Tsp_Tour P_Tsp_Kopt P_Tsp_Paths P_Tsp_Walks P_Tsp_Join P_Tsp_Linear.
Local Open Scope nat_scope.

(** the object that runs post-processing: [n] nodes, edges [E], the costs of cost matrix [C] *)
Definition post (n : nat) (E : list (nat * nat)) (C : list (list Qc)) (intr : list num)
  (selected : list (nat * nat)) (paths : option (list (list nat))) (kopt : bool) : pp_data :=
  {| d_n := n; d_edges := E; d_cost := map (fun e => Fin (qat C (fst e) (snd e))) E; d_cm := inj C;
     d_intr := intr; d_selected := selected; d_paths := paths; d_kopt := kopt |}.
Lemma post_instance : forall n E C intr sel paths kopt, NoDup sel -> incl sel E ->
  instance n E C (post n E C intr sel paths kopt).
Proof. intros; repeat (split; [reflexivity|]). auto. Qed.

(** ** C27 *)

(** Whatever the selected edges, the listed subtours and the intrinsic values are, with or without
    k-opt: if post-processing returns, the result is a closed tour through every node exactly once
    that uses only edges of the graph, and the cost returned is the sum of the costs of its edges. *)
Theorem C27_tour : forall n E C intr sel paths kopt t c,
  complete n E -> shape n n C -> NoDup sel -> incl sel E ->
  run_post_processing (post n E C intr sel paths kopt) = Some (t, c) ->
  exists tour, t = tour ++ [hd 0 tour] /\ hamiltonian n E tour /\ c = Fin (tour_length (qat C) tour).
Proof.
  intros n E C intr sel paths kopt t c HE SC N I H.
  destruct (run_inv n E C HE SC _ _ _ (post_instance n E C intr sel paths kopt N I) H)
    as (R & ps & t0 & tour & _ & _ & _ & H2 & _ & P0 & -> & Nt & K).
  assert (P : Permutation tour (seq 0 n) /\ c = Fin (tour_length (qat C) tour)).
  { cbn [post d_kopt] in K. destruct kopt.
    - destruct (perform_any _ _ _ _ _ _ K) as (_ & P & D). assert (P1 : Permutation tour (seq 0 n)) by (eapply Permutation_trans; eauto).
      split; [exact P1|]. destruct D as [(-> & ->)|(D & _)]; [reflexivity|].
      rewrite (tour_cost_len n E C HE tour H2 P1) in D. now injection D as <-.
    - destruct K as (-> & ->). split; [exact P0|reflexivity]. }
  destruct P as (P & ->). exists tour. destruct tour as [|x l]; [contradiction|].
  split; [reflexivity|]. split; [|reflexivity]. split; [|exact P]. split.
  - eapply Permutation_NoDup; [apply Permutation_sym, P|apply seq_NoDup].
  - exists x, l. split; [reflexivity|]. exact (perm_path_in n E HE (x :: l) H2 P).
Qed.

(** What the tour is made of.  [R] is what remains of the selection: in it every node has at most one
    successor and one predecessor.  Without k-opt every edge of [R] is used by the tour unless it lies
    on a cycle of [R].  The tour is a sequence of paths of [R] ending in nodes without a successor,
    with the remaining nodes attached at the ends one by one, the cheapest attachment first.  If there
    are no remaining nodes, no other order of the paths gives a shorter tour. *)
Theorem C27_structure : forall n E C intr sel paths t c,
  complete n E -> shape n n C -> NoDup sel -> incl sel E ->
  run_post_processing (post n E C intr sel paths false) = Some (t, c) ->
  exists R pieces tour, incl R sel /\ linear R /\ t = tour ++ [hd 0 tour]
    /\ (forall p, In p pieces -> p <> [] /\ NoDup p /\ path_in R p /\ sink R (last p 0))
    /\ (forall u v, In (u, v) R -> consecutive tour u v \/ exists l, cycle R l /\ In u l)
    /\ grown (qat C) (filter (fun v => negb (mem v (concat pieces))) (seq 0 n)) (concat pieces) tour
    /\ ((forall v, v < n -> In v (concat pieces)) ->
        forall pieces', Permutation pieces' pieces ->
          (tour_length (qat C) tour <= tour_length (qat C) (concat pieces'))%Qc).
Proof.
  intros n E C intr sel paths t c HE SC N I H.
  pose proof (post_instance n E C intr sel paths false N I) as Hd.
  destruct (run_inv n E C HE SC _ _ _ Hd H)
    as (R & ps & t0 & tour & HR & HP & _ & H2 & (qs & Pq & G & Best) & P0 & -> & Nt & K).
  cbn [post d_kopt] in K. destruct K as (-> & ->).
  destruct (remaining_ok n E C _ R Hd HR) as (NR & LR & IR).
  destruct (get_paths_ok R NR LR) as (ps' & E' & Fg & Nc & Cov & _). rewrite HP in E'. injection E' as <-.
  assert (Mq : filter (fun v => negb (mem v (concat qs))) (seq 0 n) = missing_of n ps).
  { unfold missing_of. apply filter_ext. intros v. f_equal.
    assert (X : forall l l', Permutation l l' -> mem v l = true -> mem v l' = true).
    { intros l l' P M. apply mem_In in M. apply mem_In. eapply Permutation_in; eauto. }
    pose proof (concat_perm _ _ Pq) as Pc.
    destruct (mem v (concat qs)) eqn:A, (mem v (concat ps)) eqn:B; try reflexivity.
    - apply (X _ _ Pc) in A. congruence.
    - apply (X _ _ (Permutation_sym Pc)) in B. congruence. }
  exists R, qs, t0. split; [exact IR|]. split; [exact LR|].
  split; [destruct t0; [contradiction|reflexivity]|]. split.
  { intros p Hp. rewrite Forall_forall in Fg. destruct (Fg p (Permutation_in _ Pq Hp)) as (A1 & A2 & _ & A3 & A4). auto. }
  split.
  { intros u v Huv. destruct (Cov u v Huv) as [(p & Hp & Q)|Q]; [left|right; exact Q].
    apply (Permutation_in _ (Permutation_sym Pq)) in Hp. destruct (grown_split _ _ _ _ G) as (a & b & -> & _).
    apply in_split in Hp as (q1 & q2 & ->). destruct Q as (s & e & ->).
    exists (a ++ concat q1 ++ s), (e ++ concat q2 ++ b). rewrite concat_app. cbn [concat].
    rewrite <- !app_assoc. reflexivity. }
  rewrite Mq. split; [exact G|]. intros A pieces' Pp. apply Best.
  - rewrite <- Mq. destruct (filter _ _) as [|v l] eqn:Q; [reflexivity|].
    assert (X : In v (filter (fun v => negb (mem v (concat qs))) (seq 0 n))) by (rewrite Q; now left).
    apply filter_In in X as (X & Y). apply in_seq in X. apply negb_true_iff in Y.
    rewrite (proj2 (mem_In _ _) (A v (proj2 X))) in Y. discriminate.
  - eapply Permutation_trans; eauto.
Qed.

(** If no node has two selected successors or predecessors, at most one edge is removed per listed
    subtour, an edge of that subtour; all other selected edges remain. *)
Theorem C27_removed : forall n E C intr sel loops,
  complete n E -> NoDup sel -> incl sel E -> linear sel ->
  (forall R, remaining_edges (post n E C intr sel None false) = Some R -> R = sel)
  /\ (forall R, remaining_edges (post n E C intr sel (Some (map (fun l => l ++ firstn 1 l) loops)) false) = Some R ->
      exists removed, R = filter (fun e => negb (edge_mem e removed)) sel /\
        Forall2 (fun l e => In e (steps (l ++ firstn 1 l))) loops removed).
Proof.
  intros n E C intr sel loops HE N I L.
  assert (Ef : forall l : list (nat * nat), filter (fun e => negb (edge_mem e [])) l = l) by (induction l as [|? ? IH]; cbn in *; congruence).
  split; intros R H; unfold remaining_edges in H; cbn [post d_edges d_intr d_selected d_paths] in H;
    rewrite removed_degree_linear in H by assumption; cbn [bind] in H.
  - rewrite Ef in H. now injection H as <-.
  - rewrite cleaning_nothing in H. apply bind_Some in H as (S & H1 & H). apply bind_Some in H1 as (r & Hr & H1).
    injection H1 as <-. rewrite Ef in H. injection H as <-. exists r. split; [reflexivity|].
    apply subtours_inv in Hr; [|apply HE].
    remember (map (fun l => l ++ firstn 1 l) loops) as ps eqn:Q. revert loops Q.
    induction Hr as [|p (a & b) ps r (He & Hs) _ IH]; intros [|l loops] Q; try discriminate; [constructor|].
    injection Q as -> ->. constructor; [|now apply IH].
    destruct l as [|x l]; [cbn in Hs; destruct Hs|]. apply (closed_steps x l a b); [|exact Hs].
    intros ->. apply (proj2 HE) in He. lia.
Qed.

(** Full statement: post-processing returns a tour for every selection of edges.  False: edges that
    one node gives up are not counted when its neighbours are treated, and all edges may go.  No path is left and
    the code fails with an IndexError ([None]). *)
Definition sel22 := [(0, 2); (0, 3); (1, 2); (1, 3)].
Definition intr22 := map (fun e => zn
  (if edge_eqb e (0, 2) then -1 else if edge_eqb e (0, 3) then -2 else if edge_eqb e (1, 2) then -4 else -3))
  (py_edges (inj cm4)).
Theorem C27_returns_refuted : exists n E C intr sel,
  complete n E /\ shape n n C /\ NoDup sel /\ incl sel E /\ sel <> [] /\ length intr = length E /\
  (forall c, ~ cycle sel c) /\
  run_post_processing (post n E C intr sel None false) = None.
Proof.
  exists 4, (py_edges (inj cm4)), cm4, intr22, sel22.
  split; [apply py_edges_complete, cm4_ok|]. split; [apply cm4_ok|].
  split; [repeat constructor; cbn; intuition congruence|].
  split; [intros e He; cbn in He; destruct He as [<-|[<-|[<-|[<-|[]]]]]; vm_compute; tauto|].
  split; [discriminate|]. split; [reflexivity|]. split; [|vm_compute; reflexivity].
  intros c (_ & x & l & -> & P). destruct (cycle_next x l x (or_introl eq_refl)) as (y & Hy & Iy).
  destruct (cycle_next x l y Iy) as (z & Hz & _). apply P in Hy, Hz. cbn in Hy, Hz.
  repeat match goal with H : _ \/ _ |- _ => destruct H | H : (_, _) = (_, _) |- _ => injection H as <- <- | H : False |- _ => destruct H end;
    discriminate.
Qed.
(** What holds: it returns if the selection is not empty, no node has two selected successors or
    predecessors, and the listed subtours are pairwise disjoint cycles of selected edges, at least
    one if there is any.  With k-opt at least five nodes are needed. *)
Theorem C27_returns_partial : forall n E C intr sel loops kopt,
  complete n E -> shape n n C -> NoDup sel -> incl sel E -> sel <> [] -> length intr = length E -> linear sel ->
  Forall (cycle sel) loops -> NoDup (concat loops) -> (loops = [] -> forall c, ~ cycle sel c) ->
  (kopt = true -> 5 <= n) ->
  exists t c, run_post_processing (post n E C intr sel
    (match loops with [] => None | _ => Some (map (fun l => l ++ firstn 1 l) loops) end) kopt) = Some (t, c).
Proof.
  intros n E C intr sel loops kopt HE SC N I Ne Li L F D A Hk.
  eapply (returns n E C HE SC _ loops); try eassumption; [now apply post_instance|reflexivity].
Qed.

(** Two subtours, [0; 1] and [2; 3; 4]: the weakest edge of each is removed and the two paths are
    joined in the better of two orders; k-opt then improves the tour. *)
Definition sel5 := [(0, 1); (1, 0); (2, 3); (3, 4); (4, 2)].
Definition intr5 := map (fun e => zn (Z.of_nat (fst e + 2 * snd e) - 20)%Z) (py_edges (inj cm5)).
Definition show (r : option (list nat * num)) : option (list nat * Q) :=
  option_map (fun tc => (fst tc, match snd tc with Fin q => this q | _ => 0%Q end)) r.
Example C27_example :
  complete 5 (py_edges (inj cm5)) /\ NoDup sel5 /\ incl sel5 (py_edges (inj cm5)) /\ linear sel5 /\
  Forall (cycle sel5) [[0; 1]; [2; 3; 4]] /\
  show (run_post_processing (post 5 (py_edges (inj cm5)) cm5 intr5 sel5 (Some [[0; 1; 0]; [2; 3; 4; 2]]) false))
    = Some ([1; 0; 4; 2; 3; 1], 31%Q) /\
  show (run_post_processing (post 5 (py_edges (inj cm5)) cm5 intr5 sel5 (Some [[0; 1; 0]; [2; 3; 4; 2]]) true))
    = Some ([3; 4; 0; 1; 2; 3], 9%Q).
Proof.
  split; [apply py_edges_complete; check_matrix|]. split; [repeat constructor; cbn; intuition congruence|].
  split; [intros e He; cbn in He; destruct He as [<-|[<-|[<-|[<-|[<-|[]]]]]]; vm_compute; tauto|].
  split; [split; intros; cbn in *; intuition congruence|].
  split; [|split; vm_compute; reflexivity].
  repeat constructor; try (cbn; intuition congruence).
  - exists 0, [1]; split; [reflexivity|]. intros u v Q. apply in_steps in Q. cbn in Q |- *. tauto.
  - exists 2, [3; 4]; split; [reflexivity|]. intros u v Q. apply in_steps in Q. cbn in Q |- *. tauto.
Qed.
(** two selected edges, no subtour; node 4 is attached at the end *)
Example C27_example_missing :
  show (run_post_processing (post 5 (py_edges (inj cm5)) cm5 intr5 [(1, 0); (2, 3)] None false))
    = Some ([1; 0; 2; 3; 4; 1], 27%Q).
Proof. vm_compute. reflexivity. Qed.

(** *** Complete calls *)

Lemma skipn_repeat : forall {A} (x : A) k m, skipn k (repeat x m) = repeat x (m - k).
Proof.
  intros A x k; induction k as [|k IH]; intros m; [now rewrite Nat.sub_0_r|]. destruct m; [reflexivity|]. cbn. apply IH.
Qed.
Lemma copy_into_inv : forall {A} (a out r : list A), copy_into a out = Some r -> r = a ++ skipn (length a) out.
Proof. intros A a out r H. unfold copy_into in H. destruct (_ <=? _); [|discriminate]. now injection H as <-. Qed.
Lemma outputs_read : forall n p st r, py_outputs n p st = Some r ->
  let o := o_arrays r in
  pairs_of (firstn (to_edges_size o) (to_edges o)) = Some (r_selected (t_sol st))
  /\ to_tour o = a_tour (t_an st) ++ repeat 0 (n + 1 - length (a_tour (t_an st)))
  /\ to_paths o = concat (a_paths (t_an st)) ++ repeat 0 (n * n - length (concat (a_paths (t_an st))))
  /\ to_sizes o = a_sizes (t_an st) ++ repeat 0 (n * n - length (a_sizes (t_an st)))
  /\ o_cost r = r_cost (t_sol st) /\ length (o_extr r) = py_num_edges n.
Proof.
  intros n p st r H o. unfold py_outputs, process_outputs in H. apply bind_Some in H as (x & Hx & H).
  apply bind_Some in H as (x' & Hx' & H). apply bind_Some in H as (w & Hw & H). injection H as <-. cbn [o_arrays o_cost o_extr] in *.
  unfold write_outputs in Hw. apply bind_Some in Hw as (a & Ha & Hw). apply bind_Some in Hw as (b & Hb & Hw).
  apply bind_Some in Hw as (c & Hc & Hw). apply bind_Some in Hw as (d & Hd & Hw). injection Hw as <-. subst o.
  cbn [to_tour to_edges to_edges_size to_paths to_sizes].
  apply copy_into_inv in Ha, Hb, Hc, Hd. subst a b c d. rewrite !skipn_repeat.
  split; [|repeat split].
  - rewrite firstn_app, Nat.sub_diag, firstn_all. cbn [firstn]. rewrite app_nil_r. apply pairs_of_flat.
  - unfold copy_into in Hx'. destruct (length x <=? _) eqn:Q; [|discriminate]. injection Hx' as <-.
    rewrite app_length, skipn_length, repeat_length in *. apply Nat.leb_le in Q. lia.
Qed.

Lemma filtered_nodup : forall {A} (f : nat * A -> bool) (l : list A), NoDup l ->
  NoDup (map snd (filter f (combine (seq 0 (length l)) l))).
Proof.
  intros A f l N.
  assert (G : forall s, NoDup (map snd (filter f (combine (seq s (length l)) l))) /\
    incl (map snd (filter f (combine (seq s (length l)) l))) l).
  { induction N as [|x l Nx N IH]; intros s; [split; [constructor|apply incl_refl]|]. cbn [length seq combine filter].
    destruct (IH (S s)) as (G1 & G2). destruct (f (s, x)); cbn [map snd].
    - split; [constructor; [intros Q; apply Nx, G2, Q|exact G1]|]. intros e [<-|Q]; [now left|right; now apply G2].
    - split; [exact G1|]. intros e Q; right; now apply G2. }
  apply G.
Qed.

(** What the Python caller gets after a complete call, for any cost matrix with zero diagonal and no
    other zero.  If post-processing ran, the answer is a closed tour through all nodes and its cost.
    If not, a tour is the one found by the solver, made of selected edges, or there is none. *)
Theorem C27_answer : forall fuel o n C ord p st r pp kopt y,
  3 <= n -> cost_matrix_ok n C -> (forall l, Permutation (ord l) l) ->
  py_call o n (inj C) ord = Some p ->
  tsp_solve fuel p (q_max_augm o) = Some (Returned st) ->
  py_outputs n p st = Some r ->
  py_finish pp kopt n (inj C) (tsp_cost_edge (p_in p)) r = Some y ->
  (y_pp y = true -> exists tour, y_tour y = Some (tour ++ [hd 0 tour])
     /\ hamiltonian n (py_edges (inj C)) tour /\ y_cost y = Fin (tour_length (qat C) tour))
  /\ (forall t, y_pp y = false -> y_tour y = Some t -> exists tour, t = tour ++ [hd 0 tour]
     /\ hamiltonian n (r_selected (t_sol st)) tour
     /\ y_cost y = Fin (qsum (map (fun e => qat C (fst e) (snd e)) (r_selected (t_sol st)))))
  /\ (y_tour y = None <-> pp = false /\ a_tour_flag (t_an st) = false)
  /\ (y_pp y = true <-> pp = true /\ a_tour_flag (t_an st) = false).
Proof.
  intros fuel o n C ord p st r pp kopt y Hn HC Po Hp R Ho Hy.
  destruct (py_call_ok o n C ord HC) as (p' & M & A & En & Ee & Co & L & Ec & Em & Ed & Ed' & SM & Ea & _ & Eo & _ & _ & EE).
  assert (Epp : p' = p) by congruence; rewrite Epp in *; clear p' Epp.
  rewrite <- Ee in L. rewrite <- Eo in Po.
  assert (He : edges_in (p_n p) (tsp_edges (p_in p))) by (rewrite En; exact (complete_edges_in _ _ Co)).
  destruct (C18_tour_is_hamiltonian _ _ _ _ Po He R) as (Inc & T0 & T1).
  pose proof (C19_cost_of_selection fuel p (q_max_augm o) st (fun e => qat C (fst e) (snd e)) L Ec R) as (Cs & Sel).
  destruct (outputs_read _ _ _ _ Ho) as (O1 & O2 & O3 & O4 & O5 & _).
  assert (Nd : NoDup (r_selected (t_sol st))) by (rewrite Sel, <- L; apply filtered_nodup, Co).
  unfold py_finish in Hy. rewrite O1 in Hy. cbn [bind] in Hy. rewrite O2, O5, Cs in Hy.
  destruct (a_tour_flag (t_an st)) eqn:Fl.
  - destruct (T1 eq_refl) as (t & x & Et & Hx & Nt & Ht & Pt).
    assert (Lt : length t = n).
    { rewrite <- (seq_length n 0), <- En. apply Permutation_length, NoDup_Permutation; [exact Nt|apply seq_NoDup|].
      intros u; rewrite Ht, in_seq. lia. }
    rewrite Et, app_length, Lt in Hy. cbn [length] in Hy. rewrite Nat.sub_diag in Hy. cbn [repeat] in Hy. rewrite app_nil_r in Hy.
    rewrite (read_tour_some (t ++ [x]) 1) in Hy by (try (apply in_or_app; left; apply Ht; lia); lia).
    injection Hy as <-. cbn [y_pp y_tour y_cost]. split; [discriminate|]. split.
    + intros t' _ Q. injection Q as <-. destruct t as [|a t]; [discriminate|]. cbn in Hx. injection Hx as <-.
      exists (a :: t). split; [reflexivity|]. split; [|reflexivity]. split.
      * split; [exact Nt|]. exists a, t. split; [reflexivity|exact Pt].
      * apply NoDup_Permutation; [exact Nt|apply seq_NoDup|]. intros u; rewrite Ht, in_seq. lia.
    + split; [split; [discriminate|intros (_ & Q); discriminate]|]. split; [discriminate|intros (_ & Q); discriminate].
  - rewrite T0 in Hy by reflexivity. cbn [app length] in Hy. rewrite read_tour_none in Hy. destruct pp.
    + apply bind_Some in Hy as ((t & c) & Ht & Hy). injection Hy as <-. cbn [y_pp y_tour y_cost].
      rewrite Ec, EE in Ht. destruct (C27_tour n (py_edges (inj C)) C (py_intrinsic r (map (fun e => Fin (qat C (fst e) (snd e))) (py_edges (inj C))))
        (r_selected (t_sol st)) (option_map close_paths (read_paths (to_sizes (o_arrays r)) (to_paths (o_arrays r)))) kopt t c)
        as (tour & -> & Hh & ->); [rewrite <- EE; exact Co|apply HC|exact Nd|rewrite <- EE; exact Inc|exact Ht|].
      split; [intros _; eauto|]. split; [discriminate|]. split; [split; [discriminate|intros (Q & _); discriminate]|tauto].
    + injection Hy as <-. cbn [y_pp y_tour y_cost]. split; [discriminate|]. split; [discriminate|].
      split; [tauto|]. split; [discriminate|intros (Q & _); discriminate].
Qed.

(** If no node has two selected successors or predecessors and something is selected, a complete call
    ends with a tour. *)
Theorem C27_call_returns_partial : forall fuel o n C ord p st r kopt,
  3 <= n -> cost_matrix_ok n C -> (forall l, Permutation (ord l) l) ->
  py_call o n (inj C) ord = Some p ->
  tsp_solve fuel p (q_max_augm o) = Some (Returned st) ->
  py_outputs n p st = Some r ->
  linear (r_selected (t_sol st)) -> r_selected (t_sol st) <> [] -> (kopt = true -> 5 <= n) ->
  exists y tour, py_finish true kopt n (inj C) (tsp_cost_edge (p_in p)) r = Some y
    /\ y_tour y = Some (tour ++ [hd 0 tour]) /\ hamiltonian n (py_edges (inj C)) tour.
Proof.
  intros fuel o n C ord p st r kopt Hn HC Po Hp R Ho Lin Ne Hk.
  destruct (py_call_ok o n C ord HC) as (p' & M & A & En & Ee & Co & L & Ec & Em & Ed & Ed' & SM & Ea & _ & Eo & _ & _ & EE).
  assert (Epp : p' = p) by congruence; rewrite Epp in *; clear p' Epp.
  assert (X : exists y, py_finish true kopt n (inj C) (tsp_cost_edge (p_in p)) r = Some y).
  { pose proof Po as Po'. rewrite <- Eo in Po. rewrite <- Ee in L.
    assert (He : edges_in (p_n p) (tsp_edges (p_in p))) by (rewrite En; exact (complete_edges_in _ _ Co)).
    destruct (C18_tour_is_hamiltonian _ _ _ _ Po He R) as (Inc & T0 & _).
    pose proof (C19_cost_of_selection fuel p (q_max_augm o) st (fun e => qat C (fst e) (snd e)) L Ec R) as (Cs & Sel).
    destruct (outputs_read _ _ _ _ Ho) as (O1 & O2 & O3 & O4 & O5 & O6).
    unfold py_finish. rewrite O1. cbn [bind]. rewrite O2.
    destruct (read_tour _) eqn:Q; [eauto|].
    assert (Nd : NoDup (r_selected (t_sol st))) by (rewrite Sel, <- L; apply filtered_nodup, Co).
    destruct (a_tour_flag (t_an st)) eqn:Fl.
    { destruct (C18_tour_is_hamiltonian _ _ _ _ Po He R) as (_ & _ & T1). destruct (T1 Fl) as (t & x & Et & _ & _ & Ht & _).
      exfalso. rewrite (read_tour_some _ 1) in Q; [discriminate| |lia]. rewrite Et. apply in_or_app. left. apply in_or_app. left. apply Ht. lia. }
    pose proof (solve_history _ _ _ _ R) as (l & st0 & H & S).
    assert (Q0 : t_sol st = t_sol st0 /\ t_an st = t_an st0).
    { destruct S as [(-> & _)| ->]; [auto|]. destruct (grow_fields p st0) as (X & Y & _); auto. }
    destruct Q0 as (Q1 & Q2).
    destruct (history_open _ _ _ H) as ((a0 & _ & An) & _). destruct (analyse_inv _ _ _ _ An) as (loops & G & Pa & Ca).
    destruct (C16_loops_are_cycles (p_ord p) (r_selected (t_sol st0)) Po) as (loops' & G' & Cy & Di).
    rewrite G in G'. injection G' as <-.
    destruct (C17_complete (p_ord p) (r_selected (t_sol st0)) Po) as (loops' & G' & Cc & _).
    rewrite G in G'. injection G' as <-.
    rewrite <- Q1 in *. rewrite <- Q2 in *.
    assert (Fc : Forall (cycle (r_selected (t_sol st))) loops) by (apply Forall_forall; exact Cy).
    assert (Fn : Forall (fun l => l <> []) loops) by (eapply Forall_impl; [|exact Fc]; intros a; apply cycle_nonempty).
    assert (Ep : option_map close_paths (read_paths (to_sizes (o_arrays r)) (to_paths (o_arrays r)))
      = match loops with [] => None | _ => Some (map (fun l => l ++ firstn 1 l) loops) end).
    { rewrite O3, O4, Pa. destruct Ca as [El _ _ _ _ Sz _ _|h _ _ _ _ Tf _ _ _ _|Nl _ _ _ _ _ Sz _ _].
      - rewrite Sz. cbn [app length]. rewrite read_paths_none, El. reflexivity.
      - congruence.
      - rewrite Sz, read_paths_ok by assumption. cbn [option_map]. rewrite close_paths_eq by exact Fn.
        destruct loops; [contradiction|reflexivity]. }
    rewrite Ep, Ec, EE.
    destruct (C27_returns_partial n (py_edges (inj C)) C
      (py_intrinsic r (map (fun e => Fin (qat C (fst e) (snd e))) (py_edges (inj C)))) (r_selected (t_sol st)) loops kopt) as (t & c & Ht);
      try assumption.
    - rewrite <- EE; exact Co.
    - apply HC.
    - rewrite <- EE; exact Inc.
    - unfold py_intrinsic. rewrite zip_with_length, map_length, O6, <- EE. lia.
    - apply (loops_disjoint (r_selected (t_sol st))); auto.
    - intros El c Hc. apply (proj2 Cc); eauto.
    - unfold post in Ht. rewrite Ht. cbn [bind]. eauto. }
  destruct X as (y & Hy). pose proof (C27_answer _ _ _ _ _ _ _ _ _ _ _ Hn HC Po Hp R Ho Hy) as (P1 & P2 & P3 & _).
  exists y. destruct (y_pp y) eqn:Q.
  - destruct (P1 eq_refl) as (tour & A1 & A2 & _). exists tour. auto.
  - destruct (y_tour y) as [t|] eqn:Qt; [|destruct (proj1 P3 eq_refl); discriminate].
    destruct (P2 t eq_refl eq_refl) as (tour & -> & ((N & x & t' & -> & Pt) & Pm) & _). exists (x :: t').
    split; [exact Hy|]. split; [reflexivity|]. split; [|exact Pm]. split; [exact N|]. exists x, t'. split; [reflexivity|].
    assert (He : edges_in (p_n p) (tsp_edges (p_in p))) by (rewrite En; exact (complete_edges_in _ _ Co)).
    rewrite <- Eo in Po. destruct (C18_tour_is_hamiltonian _ _ _ _ Po He R) as (Inc & _).
    intros u v Huv. rewrite <- EE. apply Inc, Pt, Huv.
Qed.
(** a run without augmentation finds two subtours; post-processing turns them into a tour *)
Definition no_aug := {| q_iters := 5; q_aug := false; q_reset := true; q_filt := true; q_alpha := Fin (Q2Qc (1 # 2));
  q_thr := thr4; q_max_count := 20; q_max_augm := 9 |}.
Definition finished (o : tsp_options) (n : nat) (C : list (list Qc)) (pp kopt : bool) :=
  p <- py_call o n (inj C) (fun l => l) ;;
  out <- tsp_solve 60 p (q_max_augm o) ;;
  match out with
  | Returned st =>
      r <- py_outputs n p st ;;
      y <- py_finish pp kopt n (inj C) (tsp_cost_edge (p_in p)) r ;;
      Some (r_selected (t_sol st), y_tour y, match y_cost y with Fin q => this q | _ => 0%Q end, y_pp y)
  | _ => None
  end.
Example C27_example_call :
  cost_matrix_ok 5 cm5b
  /\ finished no_aug 5 cm5b true true
     = Some ([(0, 1); (1, 0); (2, 3); (3, 4); (4, 2)], Some [1; 0; 4; 2; 3; 1], 17%Q, true)
  /\ finished no_aug 5 cm5b false true = Some ([(0, 1); (1, 0); (2, 3); (3, 4); (4, 2)], None, 9%Q, false)
  /\ finished (opt 10 false 20 50) 5 cm5 true true
     = Some ([(0, 1); (1, 2); (2, 3); (3, 4); (4, 0)], Some [1; 2; 3; 4; 0; 1], 9%Q, false).
Proof. split; [check_matrix|]. repeat split; vm_compute; reflexivity. Qed.

(** ** C28 *)

(** For every path, also with repeated nodes, and every k: outside of 2 .. n-2 the candidates are
    refused with an error; otherwise there is at least one and every one is a rearrangement of the path. *)
Theorem C28_candidates : forall path k,
  (k < 2 \/ length path < k + 2 -> k_opt_paths path k = None)
  /\ (2 <= k /\ k + 2 <= length path ->
      exists cands, k_opt_paths path k = Some cands /\ cands <> [] /\ forall c, In c cands -> Permutation c path).
Proof.
  intros path k. split.
  - intros H. unfold k_opt_paths. destruct (k <? 2) eqn:A, (length path <? k + 2) eqn:B; try reflexivity.
    apply Nat.ltb_ge in A, B. lia.
  - intros (H1 & H2). destruct (k_opt_ok path k H1 H2) as (cands & Hc & N & _). exists cands.
    split; [exact Hc|]. split; [exact N|]. intros c. now apply k_opt_perm with (k := k).
Qed.
(** The candidates for k = 2 and k = 3 are exactly the paths with two nodes exchanged, or three nodes
    moved on cyclically. *)
Theorem C28_exchanges : forall path,
  (4 <= length path -> exists cands, k_opt_paths path 2 = Some cands /\ forall c, In c cands <-> exchange2 path c)
  /\ (5 <= length path -> exists cands, k_opt_paths path 3 = Some cands /\ forall c, In c cands <-> exchange3 path c).
Proof.
  intros path. split; intros H.
  - destruct (two_opt_ok path H) as (cands & Hc & _ & G). eauto.
  - destruct (three_opt_ok path H) as (cands & Hc & _ & G). eauto.
Qed.
(** The passes together, for any costs including NaN and infinities: the result visits the same nodes,
    its cost is either the given one or below it, and less than five nodes are refused. *)
Theorem C28_never_worse : forall E cost t c,
  (length t <= 4 -> perform_k_opt E cost t c = None)
  /\ forall t' c', perform_k_opt E cost t c = Some (t', c') ->
       Permutation t' t /\ (c' = c /\ t' = t \/ nlt c' c = true /\ tour_cost E cost t' = Some c').
Proof.
  intros E cost t c. split.
  - intros H. destruct (perform_k_opt E cost t c) as [(t' & c')|] eqn:Q; [|reflexivity].
    apply perform_any in Q as (Q & _). lia.
  - intros t' c' H. apply perform_any in H as (_ & P & D). split; [exact P|]. tauto.
Qed.
(** With finite costs on a complete graph: it returns, the cost is the length of the tour returned,
    not above the length before, and no single exchange of three nodes of the tour before, or of two
    nodes of the tour returned by the first pass, would have been shorter. *)
Theorem C28_k_opt : forall n E C t, 5 <= n -> complete n E -> shape n n C -> Permutation t (seq 0 n) ->
  let len := tour_length (qat C) in
  exists mid t', perform_k_opt E (map (fun e => Fin (qat C (fst e) (snd e))) E) t (Fin (len t)) = Some (t', Fin (len t'))
    /\ Permutation t' t /\ (len t' <= len mid)%Qc /\ (len mid <= len t)%Qc
    /\ (mid = t \/ exchange3 t mid) /\ (t' = mid \/ exchange2 mid t')
    /\ (forall x, exchange3 t x -> (len mid <= len x)%Qc) /\ (forall x, exchange2 mid x -> (len t' <= len x)%Qc).
Proof.
  intros n E C t Hn HE SC P len.
  destruct (perform_ok E (map (fun e => Fin (qat C (fst e) (snd e))) E) len t) as (mid & t' & R & A & B & L1 & L2 & M1 & M2).
  - rewrite (Permutation_length P), seq_length. exact Hn.
  - intros c Pc. apply (tour_cost_len n E C HE); [lia|]. eapply Permutation_trans; eauto.
  - exists mid, t'. split; [exact R|]. split; [apply perform_any in R; tauto|]. auto 10.
Qed.
Example C28_example :
  k_opt_paths [7; 8; 9; 7] 2 = Some [[8; 7; 9; 7]; [9; 8; 7; 7]; [7; 8; 9; 7]; [7; 9; 8; 7]; [7; 7; 9; 8]; [7; 8; 7; 9]]
  /\ k_opt_paths [7; 8; 9; 7] 3 = None
  /\ show (perform_k_opt (py_edges (inj cm5)) (map (fun e => Fin (qat cm5 (fst e) (snd e))) (py_edges (inj cm5)))
       [0; 4; 2; 3; 1] (zn 31)) = Some ([4; 0; 1; 2; 3], 9%Q).
Proof. vm_compute. repeat split; reflexivity. Qed.

(** ** C29 *)

(** Adding missing nodes to a non-empty path: the given path stays in one piece, the missing nodes are
    put before and after it, each exactly once, and each one attached is a cheapest choice among all
    attachments of the nodes still missing, to the front or to the back. *)
Theorem C29_missing_nodes : forall n C tour missing, shape n n C -> tour <> [] -> NoDup missing ->
  Forall (fun v => v < n) missing -> Forall (fun v => v < n) tour ->
  exists t, add_missing_nodes (inj C) tour missing = Some t
    /\ (exists before after, t = before ++ tour ++ after /\ Permutation (before ++ after) missing)
    /\ grown (qat C) missing tour t.
Proof.
  intros n C tour missing SC Nt Nm Fm Ft. destruct (add_missing_nodes_ok n C SC missing tour Nm Fm Ft Nt) as (t & Ht & G).
  exists t. split; [exact Ht|]. split; [|exact G]. exact (grown_split _ _ _ _ G).
Qed.
Example C29_example : add_missing_nodes (inj cm5) [2; 3] [0; 1; 4] = Some [4; 0; 1; 2; 3].
Proof. vm_compute. reflexivity. Qed.

Print Assumptions C27_tour.
Print Assumptions C27_structure.
Print Assumptions C27_removed.
Print Assumptions C27_returns_refuted.
Print Assumptions C27_returns_partial.
Print Assumptions C27_answer.
Print Assumptions C27_call_returns_partial.
Print Assumptions C28_candidates.
Print Assumptions C28_exchanges.
Print Assumptions C28_never_worse.
Print Assumptions C28_k_opt.
Print Assumptions C29_missing_nodes.
