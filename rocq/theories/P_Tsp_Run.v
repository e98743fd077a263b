(** * Proofs about whole TSP runs *)
From Coq Require Import Permutation.
From Verif Require Import Num NumFacts Arr ArrFacts Spec SpecGraph MinSum MinSumFacts.
From Verif Require Import M_Tsp_Constraints P_Tsp_Constraints P_Kc_Trellis P_Ksat M_Equality P_Equality.
From Verif Require Import M_Filter P_Filter M_InOut P_InOut M_Runs P_Runs.
From Verif Require Import M_Tsp_Loops P_Tsp_Loops M_Tsp_Run.
Local Open Scope nat_scope.

(** ** Hard decision *)

(** indices selected *)
Definition chosen (thr : num) (intr : list num) : list nat :=
  filter (fun i => negb (ngt (nth i intr n0) thr)) (seq 0 (length intr)).
Lemma get_hard : forall thr intr i v, get intr i = Some v ->
  get (hard_decision thr intr) i = Some (negb (ngt v thr)).
Proof.
  intros thr intr i v H; unfold hard_decision; rewrite get_map, H; cbn.
  destruct (ngt v thr); reflexivity.
Qed.
Lemma select_ok : forall thr intr edges n, length intr = n -> length edges = n ->
  select_edges n (hard_decision thr intr) edges
  = Some (map (fun i => nth i edges (0, 0)) (chosen thr intr)).
Proof.
  intros thr intr edges n Hi He; unfold select_edges, chosen. rewrite Hi.
  match goal with |- for_up 0 n ?st0 ?bd = _ =>
    destruct (for_up_ind 0 n st0 bd (fun k st =>
      st = map (fun i => nth i edges (0, 0))
               (filter (fun i => negb (ngt (nth i intr n0) thr)) (seq 0 k)))) as (s & Es & Hs) end.
  - lia.
  - reflexivity.
  - intros k st Hk ->. destruct (get_lt intr k) as [v Hv]; [lia|].
    rewrite (get_hard _ _ _ _ Hv). cbn [bind].
    destruct (get_lt edges k) as [e Hge]; [lia|]. rewrite Hge; cbn [bind].
    replace (k + 1) with (S k) by lia. rewrite seq_S, filter_app, map_app. cbn [Nat.add filter].
    rewrite (nth_error_nth intr k n0 Hv).
    destruct (ngt v thr); cbn [negb]; eexists; (split; [reflexivity|]).
    + cbn; now rewrite app_nil_r.
    + cbn. now rewrite (nth_error_nth edges k (0, 0) Hge).
  - rewrite Es, Hs; reflexivity.
Qed.
Lemma cost_ok : forall thr intr (c : list Qc) n, length intr = n -> length c = n ->
  selection_cost (hard_decision thr intr) (map Fin c)
  = Some (Fin (qsum (map (fun i => nth i c 0%Qc) (chosen thr intr)))).
Proof.
  intros thr intr c n Hi Hc; unfold selection_cost, chosen.
  replace (length (hard_decision thr intr)) with n by (unfold hard_decision; now rewrite map_length). rewrite Hi.
  match goal with |- for_up 0 n ?st0 ?bd = _ =>
    destruct (for_up_ind 0 n st0 bd (fun k st =>
      st = Fin (qsum (map (fun i => nth i c 0%Qc)
               (filter (fun i => negb (ngt (nth i intr n0) thr)) (seq 0 k)))))) as (s & Es & Hs) end.
  - lia.
  - reflexivity.
  - intros k st Hk ->. destruct (get_lt intr k) as [v Hv]; [lia|].
    rewrite (get_hard _ _ _ _ Hv). cbn [bind].
    rewrite (get_mapFin _ _ n) by (auto; lia). cbn [bind].
    replace (k + 1) with (S k) by lia. rewrite seq_S, filter_app, map_app. cbn [Nat.add filter].
    rewrite (nth_error_nth intr k n0 Hv).
    destruct (ngt v thr); cbn [negb]; eexists; (split; [reflexivity|]); rewrite qsum_app; cbn [map]; rewrite ?qsum_cons; cbn [nadd]; f_equal; cbn; ring.
  - rewrite Es, Hs; reflexivity.
Qed.

(** ** Subtour analysis *)

Lemma mem_in : forall u l, mem u l = true <-> In u l.
Proof. exact existsb_in. Qed.
Lemma mem_nin : forall u l, mem u l = false <-> ~ In u l.
Proof. exact existsb_nin. Qed.
Lemma in_delta : forall E l i, In i (delta_S E l) <-> leaves E l i.
Proof.
  intros E l i; unfold delta_S, leaves; rewrite filter_In, in_seq; split.
  - intros (Hi & H). apply andb_prop in H as (A & B). apply mem_in in A. apply negb_true_iff, mem_nin in B.
    destruct (nth_error E i) as [(u & v)|] eqn:G; [|apply nth_error_None in G; lia].
    rewrite (nth_error_nth E i (0, 0) G) in A, B. exists u, v; auto.
  - intros (u & v & G & A & B). split; [split; [lia|]; cbn; apply nth_error_Some; congruence|].
    rewrite (nth_error_nth E i (0, 0) G). cbn. apply mem_in in A; apply mem_nin in B. now rewrite A, B.
Qed.
Lemma filter_seq_increasing : forall f s n, increasing (filter f (seq s n)).
Proof.
  intros f s n i j x y Hij; revert s i j x y Hij; induction n as [|n IH]; intros s i j x y Hij A B; cbn in *.
  - destruct i; discriminate.
  - destruct (f s) eqn:Ks.
    + destruct j as [|j]; [lia|]; cbn in B. destruct i as [|i]; cbn in A.
      * injection A as <-. apply nth_error_In, filter_In in B as (B & _); apply in_seq in B; lia.
      * apply (IH _ i j _ _ ltac:(lia) A B).
    + apply (IH _ _ _ _ _ Hij A B).
Qed.
Lemma delta_increasing : forall E l, increasing (delta_S E l).
Proof. intros E l; apply filter_seq_increasing. Qed.
Lemma delta_nodup : forall E l, NoDup (delta_S E l).
Proof. intros E l; apply NoDup_filter, seq_NoDup. Qed.
Lemma delta_range : forall E l, Forall (fun i => i < length E) (delta_S E l).
Proof.
  intros E l; apply Forall_forall; intros i H; apply in_delta in H as (u & v & G & _).
  apply nth_error_Some; congruence.
Qed.

(** where a list of constraints comes from *)
Definition add_all (E : list (nat * nat)) (loops : list (list nat)) (ds : list (list nat)) :=
  fold_left (fun ds loop => add_delta ds (delta_S E loop)) loops ds.
Lemma add_delta_eq : forall ds d, add_delta ds d = if (length d =? 0) || existsb (fun d' => list_eqb d' d) ds
  then ds else ds ++ [d].
Proof.
  intros ds d; unfold add_delta. destruct (length d =? 0); cbn [negb andb orb].
  - rewrite !andb_false_r. reflexivity.
  - rewrite !andb_true_r. destruct ds as [|d0 ds]; cbn [length Nat.eqb]; [reflexivity|].
    destruct (existsb _ _); reflexivity.
Qed.
Lemma existsb_list_in : forall ds d, existsb (fun d' => list_eqb d' d) ds = true <-> In d ds.
Proof.
  intros ds d; rewrite existsb_exists; split.
  - intros (x & H & Q); apply list_eqb_eq in Q; subst; exact H.
  - intros H; exists d; split; [exact H|now apply list_eqb_eq].
Qed.
Lemma add_delta_spec : forall ds d,
  (exists new, add_delta ds d = ds ++ new)
  /\ (forall x, In x (add_delta ds d) <-> In x ds \/ (x = d /\ d <> []))
  /\ (NoDup ds -> NoDup (add_delta ds d)).
Proof.
  intros ds d; rewrite add_delta_eq.
  destruct (length d =? 0) eqn:Z; cbn [orb].
  - apply Nat.eqb_eq, length_zero_iff_nil in Z. subst. repeat split; auto.
    + exists []; now rewrite app_nil_r.
    + intros [H|(_ & H)]; [exact H|congruence].
  - assert (Nd : d <> []) by (intros ->; discriminate).
    destruct (existsb _ ds) eqn:X.
    + apply existsb_list_in in X. repeat split; auto.
      * exists []; now rewrite app_nil_r.
      * intros [H|(-> & _)]; auto.
    + assert (X' : ~ In d ds) by (rewrite <- existsb_list_in; congruence).
      split; [exists [d]; reflexivity|]. split.
      * intros x; rewrite in_app_iff; cbn; split; [intros [H|[<-|[]]]; auto|intros [H|(-> & _)]; auto].
      * intros N. apply Permutation_NoDup with (d :: ds); [apply Permutation_cons_append|now constructor].
Qed.
Lemma add_all_spec : forall E loops ds,
  (exists new, add_all E loops ds = ds ++ new)
  /\ (forall x, In x (add_all E loops ds) <-> In x ds \/ (x <> [] /\ exists l, In l loops /\ x = delta_S E l))
  /\ (NoDup ds -> NoDup (add_all E loops ds)).
Proof.
  intros E; induction loops as [|l loops IH]; intros ds; cbn [add_all fold_left].
  - repeat split; auto; [exists []; now rewrite app_nil_r|]. intros [H|(_ & l & [] & _)]; exact H.
  - destruct (add_delta_spec ds (delta_S E l)) as ((new & A1) & A2 & A3).
    destruct (IH (add_delta ds (delta_S E l))) as ((new' & B1) & B2 & B3). fold (add_all E loops) in *.
    change (fold_left _ loops ?x) with (add_all E loops x).
    split; [exists (new ++ new'); rewrite B1, A1, app_assoc; reflexivity|]. split; [|auto].
    intros x; rewrite B2, A2. cbn [In]. split.
    + intros [[H|(-> & H)]|(H & l' & I & ->)]; [auto|right; split; [exact H|exists l; auto]|right].
      split; [exact H|exists l'; auto].
    + intros [H|(H & l' & [<-|I] & ->)]; [auto|auto|right; split; [exact H|exists l'; auto]].
Qed.

(** ** History of a run *)

Definition grow (p : tsp_params) (st : tsp_state) : tsp_state :=
  let have := length (m_sub (t_msgs st)) in
  let want := length (a_deltas (t_an st)) in
  if have =? want then st else set_msgs st (extend_sub (want - have) (p_e p) (t_msgs st)).
Definition continues (p : tsp_params) (st : tsp_state) : Prop :=
  a_satisfied (t_an st) = false /\ p_aug p = true /\ a_tour_flag (t_an st) = false
  /\ a_nocons_flag (t_an st) = false /\ c_noimp_flag (t_cnt st) = false /\ c_osc_flag (t_cnt st) = false
  /\ neqb (r_cost (t_sol st)) n0 = false.
(** states after each analysis, latest first *)
Inductive history (p : tsp_params) : list tsp_state -> Prop :=
| h_relaxed st : iterate_relaxed p (tsp_init p) = Some st -> history p [st]
| h_round st st' l : history p (st :: l) -> continues p st ->
    iterate_augmented p (grow p st) = Some (Returned st') -> history p (st' :: st :: l).

Definition bump (c : tsp_cnt) (k : nat) : tsp_cnt :=
  {| c_old := c_old c; c_oldold := c_oldold c; c_noimp := c_noimp c; c_osc := c_osc c;
     c_noimp_flag := c_noimp_flag c; c_osc_flag := c_osc_flag c; c_num_aug := k |}.

Lemma grow_fields : forall p st,
  t_sol (grow p st) = t_sol st /\ t_an (grow p st) = t_an st /\ t_cnt (grow p st) = t_cnt st.
Proof. intros p st; unfold grow; destruct (_ =? _); auto. Qed.

(** What a successful iteration has done *)
Definition decided (p : tsp_params) (s : tsp_sol) : Prop :=
  select_edges (p_e p) (hard_decision (p_thr p) (r_intr s)) (tsp_edges (p_in p)) = Some (r_selected s)
  /\ selection_cost (hard_decision (p_thr p) (r_intr s)) (tsp_cost_edge (p_in p)) = Some (r_cost s).

Ltac step H :=
  match type of H with
  | bind ?o ?f = Some _ =>
      let x := fresh "x" in let E := fresh "E" in
      destruct o as [x|] eqn:E; cbn [bind] in H; [|discriminate H]
  end.

Lemma relaxed_inv : forall p st st', iterate_relaxed p st = Some st' ->
  decided p (t_sol st') /\ analyse p (r_selected (t_sol st')) (t_an st) = Some (t_an st')
  /\ t_cnt st' = t_cnt st /\ intrinsic_output (r_extr (t_sol st')) (tsp_cost_edge (p_in p)) (r_intr (t_sol st)) = Some (r_intr (t_sol st')).
Proof.
  intros p st st' H; unfold iterate_relaxed in H.
  repeat step H. injection H as <-. cbn. unfold decided; cbn. auto.
Qed.
Lemma augmented_inv : forall p st st', iterate_augmented p st = Some (Returned st') ->
  decided p (t_sol st') /\ analyse p (r_selected (t_sol st')) (t_an st) = Some (t_an st')
  /\ t_cnt st' = bump (update_counts (p_max_count p) (r_selected (t_sol st')) (t_cnt st))
                      (c_num_aug (t_cnt st) + 1)
  /\ intrinsic_output (r_extr (t_sol st')) (tsp_cost_edge (p_in p)) (r_intr (t_sol st)) = Some (r_intr (t_sol st')).
Proof.
  intros p st st' H; unfold iterate_augmented in H.
  step H. step H. destruct (existsb _ _); [discriminate|]. repeat step H. injection H as <-. cbn.
  unfold decided; cbn. auto.
Qed.
Lemma augmented_not_running : forall p st st', iterate_augmented p st <> Some (Running st').
Proof.
  intros p st st' H; unfold iterate_augmented in H.
  step H. step H. destruct (existsb _ _); [discriminate|]. repeat step H. discriminate.
Qed.

Lemma augmentation_loop_history : forall p max fuel st l o,
  history p (st :: l) -> augmentation_loop fuel p max (grow p st) = Some o ->
  match o with
  | Exited => True
  | Running st' => exists l' st0, history p (st0 :: l') /\ st' = grow p st0
                   /\ length l' = length l + fuel
  | Returned st' => exists l' st0, history p (st0 :: l') /\ ((st' = st0 /\ Z.of_nat (c_num_aug (t_cnt st0)) = max) \/ st' = grow p st0)
  end.
Proof.
  intros p max; induction fuel as [|fuel IH]; intros st l o Hh H; cbn [augmentation_loop] in H.
  all: destruct (grow_fields p st) as (G1 & G2 & G3); rewrite G1, G2, G3 in H.
  all: destruct (a_satisfied (t_an st)) eqn:C1; cbn [negb andb] in H; [injection H as <-; exists l, st; auto|].
  all: destruct (p_aug p) eqn:C2; cbn [negb andb] in H; [|injection H as <-; exists l, st; auto].
  all: destruct (a_tour_flag (t_an st)) eqn:C3; cbn [negb] in H; [injection H as <-; exists l, st; auto|].
  all: destruct (a_nocons_flag (t_an st)) eqn:C4; cbn [orb] in H; [injection H as <-; exists l, st; auto|].
  all: destruct (c_noimp_flag (t_cnt st)) eqn:C5; cbn [orb] in H; [injection H as <-; exists l, st; auto|].
  all: destruct (c_osc_flag (t_cnt st)) eqn:C6; [injection H as <-; exists l, st; auto|].
  all: destruct (neqb (r_cost (t_sol st)) n0) eqn:C7; [injection H as <-; exact I|].
  - injection H as <-; exists l, st; rewrite Nat.add_0_r; auto.
  - destruct (iterate_augmented p (grow p st)) as [[st1| |st1]|] eqn:R; cbn [bind] in H; [| | |discriminate].
    + assert (Hh1 : history p (st1 :: st :: l)) by (constructor; [exact Hh|repeat split; assumption|exact R]).
      destruct (Z.eqb_spec (Z.of_nat (c_num_aug (t_cnt st1))) max) as [Em|Em].
      * injection H as <-; exists (st :: l), st1; auto.
      * fold (grow p st1) in H. specialize (IH _ _ _ Hh1 H).
        destruct o as [s'| |s']; [exact IH|exact I|].
        destruct IH as (l' & s0 & A & B & C); exists l', s0; repeat split; auto. cbn in C; lia.
    + injection H as <-; exact I.
    + exfalso; exact (augmented_not_running _ _ _ R).
Qed.
Lemma relaxed_sub : forall p st, iterate_relaxed p (tsp_init p) = Some st -> m_sub (t_msgs st) = [].
Proof.
  intros p st H; unfold iterate_relaxed in H.
  step H. repeat step H. injection H as <-. cbn.
  enough (G : forall k m m', m_sub m = [] -> foldM (relaxed_step p) k m = Some m' -> m_sub m' = []).
  { unfold for_up in E. exact (G _ (t_msgs (tsp_init p)) x eq_refl E). }
  induction k as [|i k IH]; intros m m' Hm F; cbn [foldM] in F; [congruence|].
  destruct (relaxed_step p m i) as [m1|] eqn:R; cbn [bind] in F; [|discriminate].
  apply (IH m1 m'); [|exact F].
  unfold relaxed_step in R. step R. step R. destruct x6. step R. injection R as <-. exact Hm.
Qed.
Lemma perform_grow : forall fuel p max st, m_sub (t_msgs st) = [] ->
  perform_augmentation fuel p max st = augmentation_loop fuel p max (grow p st).
Proof.
  intros fuel p max st H; unfold perform_augmentation, grow. rewrite H. cbn [length].
  destruct (length (a_deltas (t_an st))) as [|k]; cbn [Nat.eqb Nat.ltb Nat.leb]; [reflexivity|].
  rewrite Nat.sub_0_r. reflexivity.
Qed.
Lemma solve_history : forall fuel p max o, tsp_solve fuel p max = Some o ->
  match o with
  | Exited => True
  | Running st' => exists l' st0, history p (st0 :: l') /\ st' = grow p st0 /\ length l' = fuel
  | Returned st' => exists l' st0, history p (st0 :: l') /\ ((st' = st0 /\ (Z.of_nat (c_num_aug (t_cnt st0)) = max \/ p_aug p = false \/ l' = [] /\ a_satisfied (t_an st0) = true))
          \/ st' = grow p st0)
  end.
Proof.
  intros fuel p max o H; unfold tsp_solve in H. step H. rename x into st.
  assert (Hh : history p [st]) by (constructor; exact E).
  destruct (negb (a_satisfied (t_an st)) && p_aug p) eqn:B.
  - rewrite perform_grow in H by (exact (relaxed_sub _ _ E)).
    pose proof (augmentation_loop_history _ _ _ _ _ _ Hh H) as G. destruct o as [st'| |st']; [|exact I|exact G].
    destruct G as (l' & st0 & A & [(A1 & A2)|A1]); exists l', st0; auto.
  - injection H as <-. exists [], st; split; [exact Hh|]. left; split; [reflexivity|].
    destruct (a_satisfied (t_an st)); [auto|]. cbn in B. auto.
Qed.

(** ** Results of the analysis *)

Inductive analysed (p : tsp_params) (loops : list (list nat)) (a a' : tsp_an) : Prop :=
| an_none : loops = [] -> a_deltas a' = a_deltas a -> a_tour a' = a_tour a ->
    a_tour_flag a' = a_tour_flag a -> a_satisfied a' = a_satisfied a -> a_sizes a' = [] ->
    a_nocons a' = a_nocons a + 1 ->
    a_nocons_flag a' = a_nocons_flag a || (p_max_count p <? Z.of_nat (a_nocons a + 1))%Z ->
    analysed p loops a a'
| an_tour h : loops = [h] -> length h = p_n p -> a_deltas a' = a_deltas a ->
    (exists x, nth_error h 0 = Some x /\ a_tour a' = h ++ [x]) ->
    a_tour_flag a' = true -> a_satisfied a' = true -> a_sizes a' = [] ->
    a_nocons a' = a_nocons a -> a_nocons_flag a' = a_nocons_flag a -> analysed p loops a a'
| an_subtours : loops <> [] -> (forall h, loops = [h] -> length h <> p_n p) ->
    a_deltas a' = add_all (tsp_edges (p_in p)) loops (a_deltas a) ->
    a_tour a' = a_tour a -> a_tour_flag a' = a_tour_flag a -> a_satisfied a' = a_satisfied a ->
    a_sizes a' = map (@length nat) loops -> a_nocons a' = 0 -> a_nocons_flag a' = a_nocons_flag a ->
    analysed p loops a a'.
Lemma analyse_inv : forall p sel a a', analyse p sel a = Some a' ->
  exists loops, get_closed_loops (p_ord p) sel = Some loops /\ a_paths a' = loops /\ analysed p loops a a'.
Proof.
  intros p sel a a' H; unfold analyse in H. step H. exists x; split; [reflexivity|].
  destruct x as [|h rest].
  - injection H as <-; cbn. split; [reflexivity|]. apply an_none; reflexivity.
  - destruct ((length (h :: rest) =? 1) && (length h =? p_n p)) eqn:C.
    + apply andb_prop in C as (C1 & C2). apply Nat.eqb_eq in C1, C2. destruct rest; [|discriminate].
      step H. injection H as <-; cbn. split; [reflexivity|].
      apply an_tour with h; auto; try reflexivity. exists x; auto.
    + injection H as <-; cbn [a_paths]. split; [reflexivity|].
      apply an_subtours; try reflexivity; [discriminate|].
      intros h' Q Lh. injection Q as -> ->. cbn [length Nat.eqb andb] in C. rewrite Lh, Nat.eqb_refl in C. discriminate.
Qed.

(** Flags before a tour is found *)
Definition open_an (a : tsp_an) : Prop :=
  a_tour_flag a = false /\ a_satisfied a = false /\ a_tour a = [].
Lemma history_open : forall p st l, history p (st :: l) ->
  (exists a0, open_an a0 /\ analyse p (r_selected (t_sol st)) a0 = Some (t_an st))
  /\ decided p (t_sol st)
  /\ (a_tour_flag (t_an st) = false -> open_an (t_an st))
  /\ c_num_aug (t_cnt st) = length l.
Proof.
  intros p st l H. remember (st :: l) as hs eqn:Q. revert st l Q.
  assert (K : forall sel a0 a1, open_an a0 -> analyse p sel a0 = Some a1 -> a_tour_flag a1 = false -> open_an a1).
  { intros sel a0 a1 (O1 & O2 & O3) A F. destruct (analyse_inv _ _ _ _ A) as (loops & _ & _ & [ ]);
      [|congruence|]; repeat split; congruence. }
  induction H as [st0 R|st0 st1 l0 H IH C R]; intros st l Q; injection Q as <- <-.
  - destruct (relaxed_inv _ _ _ R) as (D & A & Cn & _).
    assert (O : open_an (t_an (tsp_init p))) by (repeat split).
    split; [exists (t_an (tsp_init p)); split; [exact O|exact A]|]. split; [exact D|].
    split; [exact (K _ _ _ O A)|]. rewrite Cn; reflexivity.
  - destruct (augmented_inv _ _ _ R) as (D & A & Cn & _).
    destruct (grow_fields p st0) as (G1 & G2 & G3). rewrite G2 in A. rewrite G3 in Cn.
    destruct (IH _ _ eq_refl) as (_ & _ & Op & N).
    assert (O : open_an (t_an st0)) by (apply Op; apply C).
    split; [exists (t_an st0); split; [exact O|exact A]|]. split; [exact D|].
    split; [exact (K _ _ _ O A)|]. rewrite Cn; cbn. rewrite N; lia.
Qed.

(** *** Tours *)

Lemma cycle_incl_nodes : forall E c n, (forall u v, In (u, v) E -> u < n /\ v < n) -> cycle E c ->
  incl c (seq 0 n).
Proof.
  intros E c n HE (N & x & c' & -> & P) y Hy.
  assert (Q : exists z, In (y, z) E).
  { assert (G : In y (x :: c')) by exact Hy.
    apply in_split in G as (a & b & G). rewrite G in P. rewrite <- app_assoc in P; cbn [app] in P.
    destruct (b ++ [x]) as [|z b'] eqn:B; [destruct b; discriminate|].
    exists z. apply P. exists a, b'. reflexivity. }
  destruct Q as (z & Q). apply HE in Q. apply in_seq; lia.
Qed.
Lemma full_cycle : forall E c n, (forall u v, In (u, v) E -> u < n /\ v < n) -> cycle E c -> length c = n ->
  hamiltonian n E c.
Proof.
  intros E c n HE C L. split; [exact C|].
  apply NoDup_Permutation_bis; [exact (proj1 C)| |exact (cycle_incl_nodes _ _ _ HE C)].
  rewrite seq_length; lia.
Qed.
Lemma selected_incl : forall p s, decided p s -> length (r_intr s) = p_e p ->
  length (tsp_edges (p_in p)) = p_e p -> incl (r_selected s) (tsp_edges (p_in p)).
Proof.
  intros p s (D & _) Li Le e He. rewrite (select_ok _ _ _ _ Li Le) in D. injection D as D.
  rewrite <- D in He. apply in_map_iff in He as (i & <- & Hi). apply nth_In.
  unfold chosen in Hi. apply filter_In in Hi as (Hi & _). apply in_seq in Hi. lia.
Qed.
(** the same without assumptions on lengths *)
Lemma select_incl : forall n hd edges sel, select_edges n hd edges = Some sel -> incl sel edges.
Proof.
  intros n hd edges; unfold select_edges, for_up.
  assert (G : forall l s s', incl s edges ->
    foldM (fun sel i => h <- get hd i ;; if (h : bool) then e <- get edges i ;; Some (sel ++ [e]) else Some sel) l s
    = Some s' -> incl s' edges).
  { induction l as [|i l IH]; intros s s' I F; cbn [foldM] in F; [injection F as <-; exact I|].
    destruct (get hd i) as [[|]|]; cbn [bind] in F; [| |discriminate].
    - destruct (get edges i) as [e|] eqn:Ge; cbn [bind] in F; [|discriminate].
      apply (IH (s ++ [e]) s'); [|exact F]. intros x Hx; apply in_app_iff in Hx as [Hx|[<-|[]]]; [auto|].
      exact (nth_error_In _ _ Ge).
    - apply (IH s s' I F). }
  intros sel H. refine (G (seq 0 (n - 0)) [] sel _ H). intros x [].
Qed.
Lemma tour_hamiltonian : forall p st l,
  (forall l, Permutation (p_ord p l) l) -> edges_in (p_n p) (tsp_edges (p_in p)) ->
  history p (st :: l) -> a_tour_flag (t_an st) = true ->
  exists t x, a_tour (t_an st) = t ++ [x] /\ nth_error t 0 = Some x
    /\ hamiltonian (p_n p) (r_selected (t_sol st)) t.
Proof.
  intros p st l Po He H F. destruct (history_open _ _ _ H) as ((a0 & (O1 & O2 & O3) & A) & (D & _) & _ & _).
  destruct (analyse_inv _ _ _ _ A) as (loops & G & _ & [ | h Q Lh _ (x & Hx & T) _ _ _ _ | ]); [congruence| |congruence].
  exists h, x; split; [exact T|]. split; [exact Hx|].
  apply full_cycle; [| |exact Lh].
  - intros u v I. apply (select_incl _ _ _ _ D) in I. unfold edges_in in He; rewrite Forall_forall in He.
    exact (He _ I).
  - rewrite (loops_eq _ Po) in G. injection G as G. apply (keep_cycle (p_ord p)). rewrite G, Q; now left.
Qed.

(** *** Constraints *)

(** every state of a history is the latest state of a shorter history *)
Lemma history_tail : forall p hs s, history p hs -> In s hs ->
  exists a b, hs = a ++ s :: b /\ history p (s :: b).
Proof.
  intros p hs s H; induction H as [st0 R|st0 st1 l0 H IH C R]; intros I.
  - destruct I as [<-|[]]. exists [], []; split; [reflexivity|now constructor].
  - destruct I as [<-|I].
    + exists [], (st0 :: l0); split; [reflexivity|now constructor].
    + destruct (IH I) as (a & b & Q & Hb). exists (st1 :: a), b. rewrite Q. split; [reflexivity|exact Hb].
Qed.
(** loops reported with a state *)
Lemma history_paths : forall p hs s, history p hs -> In s hs ->
  incl (r_selected (t_sol s)) (tsp_edges (p_in p))
  /\ get_closed_loops (p_ord p) (r_selected (t_sol s)) = Some (a_paths (t_an s)).
Proof.
  intros p hs s H I. destruct (history_tail _ _ _ H I) as (a & b & _ & Hs).
  destruct (history_open _ _ _ Hs) as ((a0 & _ & A) & (D & _) & _).
  split; [exact (select_incl _ _ _ _ D)|].
  destruct (analyse_inv _ _ _ _ A) as (loops & G & Q & _). congruence.
Qed.

(** where every constraint comes from: a loop reported after some round *)
Definition from_loop (p : tsp_params) (hs : list tsp_state) (d : list nat) : Prop :=
  exists s l, In s hs /\ In l (a_paths (t_an s)) /\ d = delta_S (tsp_edges (p_in p)) l /\ d <> [].
Lemma history_deltas : forall p st l, history p (st :: l) ->
  Forall (from_loop p (st :: l)) (a_deltas (t_an st)) /\ NoDup (a_deltas (t_an st))
  /\ match l with st0 :: _ => exists new, a_deltas (t_an st) = a_deltas (t_an st0) ++ new | [] => True end
  /\ (a_tour_flag (t_an st) = false -> forall lp, In lp (a_paths (t_an st)) ->
        delta_S (tsp_edges (p_in p)) lp <> [] -> In (delta_S (tsp_edges (p_in p)) lp) (a_deltas (t_an st))).
Proof.
  intros p st l H. remember (st :: l) as hs eqn:Q. revert st l Q.
  assert (K : forall sel a0 s1 hs0, analyse p sel a0 = Some (t_an s1) ->
    Forall (from_loop p hs0) (a_deltas a0) -> NoDup (a_deltas a0) ->
    Forall (from_loop p (s1 :: hs0)) (a_deltas (t_an s1)) /\ NoDup (a_deltas (t_an s1))
    /\ (exists new, a_deltas (t_an s1) = a_deltas a0 ++ new)
    /\ (a_tour_flag (t_an s1) = false -> forall lp, In lp (a_paths (t_an s1)) ->
        delta_S (tsp_edges (p_in p)) lp <> [] -> In (delta_S (tsp_edges (p_in p)) lp) (a_deltas (t_an s1)))).
  { intros sel a0 s1 hs0 A Fo No.
    assert (Fo' : Forall (from_loop p (s1 :: hs0)) (a_deltas a0)).
    { eapply Forall_impl; [|exact Fo]. intros d (s & lp & I & R); exists s, lp; split; [now right|exact R]. }
    destruct (analyse_inv _ _ _ _ A) as (loops & G & Pa & [Lo Dl _ _ _ _ _ _ | h _ _ Dl _ Tf _ _ _ _ | Nl _ Dl _ _ _ _ _ _]).
    - rewrite Dl. repeat split; auto; [exists []; now rewrite app_nil_r|]. rewrite Pa, Lo. intros _ lp [].
    - rewrite Dl. repeat split; auto; [exists []; now rewrite app_nil_r|]. congruence.
    - rewrite Dl. destruct (add_all_spec (tsp_edges (p_in p)) loops (a_deltas a0)) as (S1 & S2 & S3).
      split; [|split; [exact (S3 No)|split; [exact S1|]]].
      + apply Forall_forall; intros d Hd. apply S2 in Hd as [Hd|(Nd & lp & Il & ->)].
        * rewrite Forall_forall in Fo'; auto.
        * exists s1, lp. rewrite Pa. repeat split; auto. now left.
      + intros _ lp Il Nd. apply S2; right. split; [exact Nd|]. exists lp; split; [congruence|reflexivity]. }
  induction H as [st0 R|st0 st1 l0 H IH C R]; intros st l Q; injection Q as <- <-.
  - destruct (relaxed_inv _ _ _ R) as (_ & A & _ & _).
    destruct (K _ _ _ [] A) as (K1 & K2 & _ & K3); [constructor|constructor|]. auto.
  - destruct (augmented_inv _ _ _ R) as (_ & A & _ & _).
    destruct (grow_fields p st0) as (_ & G2 & _). rewrite G2 in A.
    destruct (IH _ _ eq_refl) as (I1 & I2 & _).
    exact (K _ _ _ _ A I1 I2).
Qed.
(** constraints are never removed *)
Lemma history_prefix : forall p st l, history p (st :: l) -> forall s, In s (st :: l) ->
  exists new, a_deltas (t_an st) = a_deltas (t_an s) ++ new.
Proof.
  intros p st l H. remember (st :: l) as hs eqn:Q. revert st l Q.
  induction H as [st0 R|st0 st1 l0 H IH C R]; intros st l Q s I; injection Q as <- <-.
  - destruct I as [<-|[]]. exists []; now rewrite app_nil_r.
  - destruct I as [<-|I]; [exists []; now rewrite app_nil_r|].
    destruct (IH _ _ eq_refl s I) as (n1 & E1).
    destruct (history_deltas p st1 (st0 :: l0)) as (_ & _ & (n2 & E2) & _); [now constructor|].
    exists (n1 ++ n2). rewrite E2, E1, app_assoc. reflexivity.
Qed.

(** ** Counters *)

Lemma intrinsic_length : forall a b out o, intrinsic_output a b out = Some o -> length o = length out.
Proof.
  intros a b out o H; unfold intrinsic_output, transform2 in H.
  destruct (_ && _) eqn:C in H; [|discriminate]. injection H as <-.
  apply andb_prop in C as (C1 & C2). apply Nat.leb_le in C1, C2.
  rewrite app_length, zip_with_length, skipn_length. lia.
Qed.
Lemma history_intr : forall p st l, history p (st :: l) -> length (r_intr (t_sol st)) = p_e p.
Proof.
  intros p st l H. remember (st :: l) as hs eqn:Q. revert st l Q.
  induction H as [st0 R|st0 st1 l0 H IH C R]; intros st l Q; injection Q as <- <-.
  - destruct (relaxed_inv _ _ _ R) as (_ & _ & _ & I). apply intrinsic_length in I. rewrite I.
    cbn. apply repeat_length.
  - destruct (augmented_inv _ _ _ R) as (_ & _ & _ & I). apply intrinsic_length in I. rewrite I.
    destruct (grow_fields p st0) as (G1 & _). rewrite G1. exact (IH _ _ eq_refl).
Qed.
Lemma no_selection_cost : forall hd edges cost c, select_edges (length hd) hd edges = Some [] ->
  selection_cost hd cost = Some c -> c = n0.
Proof.
  intros hd edges cost c; unfold select_edges, selection_cost, for_up.
  generalize (seq 0 (length hd - 0)) as l. generalize n0 as acc.
  assert (G : forall l s s', foldM (fun sel i => h <- get hd i ;; if (h : bool) then e <- get edges i ;; Some (sel ++ [e]) else Some sel) l s
    = Some s' -> length s <= length s').
  { induction l as [|i l IH]; intros s s' F; cbn [foldM] in F; [injection F as <-; lia|].
    destruct (get hd i) as [[|]|]; cbn [bind] in F; [| |discriminate].
    - destruct (get edges i) as [e|] eqn:Ge; cbn [bind] in F; [|discriminate].
      apply IH in F. rewrite app_length in F; cbn in F; lia.
    - exact (IH _ _ F). }
  intros acc l; induction l as [|i l IH]; intros H1 H2; cbn [foldM] in *; [congruence|].
  destruct (get hd i) as [[|]|]; cbn [bind] in *; [| |discriminate].
  - exfalso. destruct (get edges i) as [e|]; cbn [bind app] in H1; [|discriminate].
    apply G in H1. cbn in H1; lia.
  - exact (IH H1 H2).
Qed.
Lemma continues_nonempty : forall p st l, history p (st :: l) -> continues p st ->
  r_selected (t_sol st) <> [].
Proof.
  intros p st l H C Q. destruct (history_open _ _ _ H) as (_ & (D1 & D2) & _).
  rewrite Q in D1.
  assert (L : length (hard_decision (p_thr p) (r_intr (t_sol st))) = p_e p).
  { unfold hard_decision; rewrite map_length. exact (history_intr _ _ _ H). }
  rewrite <- L in D1. pose proof (no_selection_cost _ _ _ _ D1 D2) as Z.
  destruct C as (_ & _ & _ & _ & _ & _ & C). rewrite Z in C. discriminate.
Qed.
Lemma edges_eqb_eq : forall a b, edges_eqb a b = true <-> a = b.
Proof.
  induction a as [|(x1 & x2) a IH]; intros [|(y1 & y2) b]; cbn; try (split; congruence).
  unfold edge_eqb; cbn. rewrite !andb_true_iff, IH, !Nat.eqb_eq. split.
  - intros ((-> & ->) & ->); reflexivity.
  - intros Q; injection Q as -> -> ->; auto.
Qed.
Lemma nonempty_iff : forall {A} (l : list A), nonempty l = true <-> l <> [].
Proof. intros A [|x l]; unfold nonempty; cbn; split; congruence. Qed.

(** selections of the augmentation rounds, latest first (the relaxed round is not recorded) *)
Definition selections (hs : list tsp_state) : list (list (nat * nat)) :=
  map (fun st => r_selected (t_sol st)) (removelast hs).

Definition counted (p : tsp_params) (st : tsp_state) (sels : list (list (nat * nat))) : Prop :=
  let c := t_cnt st in
  c_old c = nth 0 sels []
  /\ (continues p st -> c_oldold c = nth 1 sels [] /\ Forall (fun s => s <> []) sels)
  /\ (forall i, i <= c_noimp c -> 0 < c_noimp c -> exists s, nth_error sels i = Some s /\ nth_error sels 0 = Some s)
  /\ (forall i, i < c_osc c -> exists s s', nth_error sels i = Some s /\ nth_error sels (i + 2) = Some s
        /\ nth_error sels (i + 1) = Some s' /\ s <> s')
  /\ (c_noimp_flag c = true -> (p_max_count p < Z.of_nat (c_noimp c))%Z /\ 0 < c_noimp c)
  /\ (c_osc_flag c = true -> (p_max_count p < Z.of_nat (c_osc c))%Z /\ 0 < c_osc c).

Lemma history_counted : forall p st l, history p (st :: l) -> counted p st (selections (st :: l)).
Proof.
  intros p st l H. remember (st :: l) as hs eqn:Q. revert st l Q.
  induction H as [st0 R|st0 st1 l0 H IH C R]; intros st l Q; injection Q as <- <-.
  - destruct (relaxed_inv _ _ _ R) as (_ & _ & Cn & _). unfold counted; rewrite Cn; cbn.
    repeat split; auto; try lia; discriminate.
  - destruct (augmented_inv _ _ _ R) as (_ & _ & Cn & _).
    destruct (grow_fields p st0) as (_ & _ & G3). rewrite G3 in Cn.
    specialize (IH _ _ eq_refl). unfold counted in IH.
    pose proof C as C0. destruct C as (_ & _ & _ & _ & F1 & F2 & _).
    destruct IH as (I1 & I2 & I3 & I4 & _ & _). destruct (I2 C0) as (I2a & I2b). clear I2.
    change (selections (st1 :: st0 :: l0)) with (r_selected (t_sol st1) :: selections (st0 :: l0)).
    set (sel := r_selected (t_sol st1)) in *. set (sels := selections (st0 :: l0)) in *.
    set (c := t_cnt st0) in *.
    assert (Nz : c_old c = [] -> c_noimp c = 0 /\ c_osc c = 0 /\ sels = []).
    { intros Z. rewrite I1 in Z. assert (S0 : sels = []).
      { destruct sels as [|s0 ss]; [reflexivity|]. inversion I2b; subst. cbn in Z; congruence. }
      rewrite S0 in I3, I4. split; [|split; [|exact S0]].
      - destruct (c_noimp c) as [|k]; [reflexivity|]. destruct (I3 0) as (s & A & _); [lia|lia|discriminate].
      - destruct (c_osc c) as [|k]; [reflexivity|]. destruct (I4 0) as (s & s' & A & _); [lia|discriminate]. }
    assert (Oz : c_oldold c = [] -> c_osc c = 0).
    { intros Z. rewrite I2a in Z. destruct (c_osc c) as [|k]; [reflexivity|exfalso].
      destruct (I4 0) as (s & s' & A & _ & B & _); [lia|]. cbn [Nat.add] in B.
      rewrite (nth_error_nth _ _ [] B) in Z. rewrite Forall_forall in I2b.
      apply (I2b s'); [exact (nth_error_In _ _ B)|exact Z]. }
    unfold counted. rewrite Cn. unfold update_counts. fold sel c.
    destruct (nonempty (c_old c)) eqn:Eo.
    + apply nonempty_iff in Eo.
      assert (Hs0 : nth_error sels 0 = Some (c_old c)).
      { rewrite I1 in *. destruct sels; [cbn in Eo; congruence|reflexivity]. }
      destruct (edges_eqb sel (c_old c)) eqn:Eq.
      all: destruct (nonempty (c_oldold c)) eqn:Eoo.
      all: try (destruct (edges_eqb sel (c_oldold c) && negb (edges_eqb (c_oldold c) (c_old c))) eqn:Osc).
      all: cbn [bump c_old c_oldold c_noimp c_osc c_noimp_flag c_osc_flag c_num_aug nth].
      all: (split; [reflexivity|]); (split; [intros Cs; split; [exact I1|]; constructor; [|exact I2b];
             refine (continues_nonempty p st1 (st0 :: l0) _ Cs); constructor; assumption|]).
      all: rewrite ?F1, ?F2; cbn [orb].
      all: repeat match goal with |- _ /\ _ => split end.
      all: try (intros; discriminate).
      all: try (intros i Hi; lia).
      all: try (intros i Hi Hj; lia).
      all: try (intros Hf; apply Z.ltb_lt in Hf; split; [exact Hf|lia]).
      all: try (apply edges_eqb_eq in Eq; rewrite <- Eq in Hs0; intros i Hi _; exists sel; split; [|reflexivity];
                destruct i as [|i]; [reflexivity|]; cbn [nth_error];
                destruct (c_noimp c) as [|k] eqn:Ek; [replace i with 0 by lia; exact Hs0|];
                destruct (I3 i) as (s & A & B); [lia|lia|]; rewrite A; rewrite B in Hs0; exact Hs0).
      all: try (apply andb_prop in Osc as (Os1 & Os2); apply edges_eqb_eq in Os1;
                apply negb_true_iff in Os2;
                intros i Hi; destruct i as [|i];
                [exists sel, (c_old c); cbn [nth_error Nat.add]; split; [reflexivity|];
                 split; [|split; [exact Hs0|]];
                 [apply nonempty_iff in Eoo; rewrite Os1, I2a in *;
                  destruct sels as [|s0 [|s1 ss]]; cbn in *; [congruence|congruence|reflexivity]
                 |rewrite Os1; intros Hx; apply edges_eqb_eq in Hx; congruence]
                |cbn [nth_error Nat.add]; apply I4; lia]).
      all: try (assert (Z : c_oldold c = []) by (destruct (c_oldold c); [reflexivity|discriminate]);
                rewrite (Oz Z); intros; lia).
    + assert (Z : c_old c = []) by (destruct (c_old c); [reflexivity|discriminate]).
      destruct (Nz Z) as (Z1 & Z2 & Z3).
      assert (Z4 : c_oldold c = []) by (rewrite I2a, Z3; reflexivity).
      rewrite Z4; cbn [nonempty length Nat.eqb negb].
      cbn [bump c_old c_oldold c_noimp c_osc c_noimp_flag c_osc_flag c_num_aug nth].
      rewrite F1, F2, Z1, Z2, Z3.
      split; [reflexivity|]. split; [intros Cs; split; [reflexivity|]; constructor; [|constructor];
             refine (continues_nonempty p st1 (st0 :: l0) _ Cs); constructor; assumption|].
      repeat split; try discriminate; intros; lia.
Qed.

Definition no_loops_counted (p : tsp_params) (st : tsp_state) (hs : list tsp_state) : Prop :=
  (a_tour_flag (t_an st) = false -> forall i, i < a_nocons (t_an st) ->
     exists s, nth_error hs i = Some s /\ a_paths (t_an s) = [])
  /\ (a_nocons_flag (t_an st) = true ->
       a_tour_flag (t_an st) = false /\ (p_max_count p < Z.of_nat (a_nocons (t_an st)))%Z
       /\ 0 < a_nocons (t_an st)).
Lemma history_no_loops : forall p st l, history p (st :: l) -> no_loops_counted p st (st :: l).
Proof.
  intros p st l H. remember (st :: l) as hs eqn:Q. revert st l Q.
  assert (K : forall sel a0 s1 hs, a_tour_flag a0 = false -> a_nocons_flag a0 = false ->
    analyse p sel a0 = Some (t_an s1) ->
    (forall i, i < a_nocons a0 -> exists s, nth_error hs i = Some s /\ a_paths (t_an s) = []) ->
    no_loops_counted p s1 (s1 :: hs)).
  { intros sel a0 s1 hs0 T F A I.
    destruct (analyse_inv _ _ _ _ A) as (loops & G & Pa & [Q _ _ Tf _ _ Nc Nf | h Q _ _ _ Tf _ _ Nc Nf | Q _ _ _ Tf _ _ Nc Nf]).
    - split.
      + intros _ i Hi. rewrite Nc in Hi. destruct i as [|i]; [exists s1; split; [reflexivity|congruence]|].
        cbn [nth_error]; apply I; lia.
      + intros Hf. rewrite Nf, F in Hf. cbn [orb] in Hf. apply Z.ltb_lt in Hf. rewrite Nc.
        split; [congruence|]. split; [exact Hf|lia].
    - split; [congruence|]. intros Hf; congruence.
    - split; [intros _ i Hi; lia|]. intros Hf; congruence. }
  induction H as [st0 R|st0 st1 l0 H IH C R]; intros st l Q; injection Q as <- <-.
  - destruct (relaxed_inv _ _ _ R) as (_ & A & _ & _). apply (K _ (t_an (tsp_init p)) _ _ eq_refl eq_refl A).
    cbn; intros; lia.
  - destruct (augmented_inv _ _ _ R) as (_ & A & _ & _).
    destruct (grow_fields p st0) as (_ & G2 & _). rewrite G2 in A.
    destruct C as (_ & _ & C1 & C2 & _).
    destruct (IH _ _ eq_refl) as (I1 & _).
    apply (K _ _ _ _ C1 C2 A). exact (I1 C1).
Qed.

(** ** The limit on augmentation rounds *)

Lemma augmentation_loop_limit : forall p max fuel st, (1 <= max)%Z ->
  (Z.of_nat (c_num_aug (t_cnt st)) < max)%Z -> (max - Z.of_nat (c_num_aug (t_cnt st)) <= Z.of_nat fuel)%Z ->
  match augmentation_loop fuel p max st with
  | Some (Returned st') => (Z.of_nat (c_num_aug (t_cnt st')) <= max)%Z
  | Some (Running _) => False
  | _ => True
  end.
Proof.
  intros p max; induction fuel as [|fuel IH]; intros st Hm Hlt Hf; cbn [augmentation_loop].
  all: destruct (negb _ && _ && _); [|cbn; lia].
  all: destruct (_ || _ || _); [cbn; lia|].
  all: destruct (neqb _ _); [exact I|].
  - lia.
  - destruct (iterate_augmented p st) as [[st1| |st1]|] eqn:R; cbn [bind]; [|exact I| |exact I].
    + destruct (augmented_inv _ _ _ R) as (_ & _ & Cn & _).
      assert (N1 : c_num_aug (t_cnt st1) = c_num_aug (t_cnt st) + 1) by (rewrite Cn; reflexivity).
      destruct (Z.eqb_spec (Z.of_nat (c_num_aug (t_cnt st1))) max) as [Q|Q]; [lia|].
      fold (grow p st1). destruct (grow_fields p st1) as (_ & _ & G3).
      apply IH; rewrite ?G3; lia.
    + exact (augmented_not_running _ _ _ R).
Qed.
