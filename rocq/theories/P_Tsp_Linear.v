(** * Post-processing of a selection in which no node has two successors or two predecessors: which
    edges are removed, and when a tour is returned. *)
From Coq Require Import Permutation.
From Verif Require Import Num NumFacts Arr ArrFacts Spec SpecGraph SpecTour M_InOut M_Tsp_Run M_Tsp_Post
  P_Tsp_Run P_Tsp_Tour P_Tsp_Paths P_Tsp_Walks P_Tsp_Join.
Local Open Scope nat_scope.

Lemma at_most_one_length : forall {A} (l : list A) , NoDup l -> (forall x y, In x l -> In y l -> x = y) -> length l <= 1.
Proof.
  intros A [|x [|y l]] N H; cbn; try lia. exfalso. inversion N as [|? ? N1 _]. apply N1. left. apply H; [right; left|left]; reflexivity.
Qed.
Lemma removed_degree_linear : forall E intr S, NoDup S -> linear S -> removed_degree E intr S = Some [].
Proof.
  intros E intr S N (L1 & L2). unfold removed_degree.
  assert (Z : filter (fun k => excess (snd k)) (construct_graph S) = []).
  { destruct (filter _ _) as [|(k & io) l] eqn:Q; [reflexivity|]. exfalso.
    assert (I : In (k, io) (filter (fun k => excess (snd k)) (construct_graph S))) by (rewrite Q; now left).
    apply filter_In in I as (I & X). apply graph_entry in I as ->. unfold excess in X. cbn [snd fst] in X.
    assert (A : length (ins S k) <= 1).
    { rewrite <- (map_length (fun u => (u, k))), ins_edges. apply at_most_one_length; [now apply NoDup_filter|].
      intros (a & b) (a' & b') H1 H2. apply filter_In in H1 as (H1 & Q1), H2 as (H2 & Q2).
      apply Nat.eqb_eq in Q1, Q2. cbn in Q1, Q2. subst b b'. f_equal. eapply L2; eauto. }
    assert (B : length (outs S k) <= 1).
    { rewrite <- (map_length (fun v => (k, v))), outs_edges. apply at_most_one_length; [now apply NoDup_filter|].
      intros (a & b) (a' & b') H1 H2. apply filter_In in H1 as (H1 & Q1), H2 as (H2 & Q2).
      apply Nat.eqb_eq in Q1, Q2. cbn in Q1, Q2. subst a a'. f_equal. eapply L1; eauto. }
    apply orb_true_iff in X as [X|X]; apply Nat.ltb_lt in X; lia. }
  rewrite Z. reflexivity.
Qed.

(** with nothing removed no path is broken *)
Lemma clean_nothing : forall p q, snd (clean_path [] p q) = false.
Proof.
  induction p as [|x p IH]; intros q; cbn [clean_path]; [reflexivity|]. destruct p as [|y p]; [reflexivity|].
  cbn [edge_mem existsb]. apply IH.
Qed.
Lemma cleaning_nothing : forall ps, snd (paths_cleaning [] ps) = map (fun _ => false) ps.
Proof. intros ps. unfold paths_cleaning. cbn [snd]. rewrite map_map. apply map_ext. intros p. apply clean_nothing. Qed.

Lemma tour_indices_edge : forall E t i e, NoDup E -> In i (tour_indices E t) -> get E i = Some e ->
  In e (steps (t ++ firstn 1 t)).
Proof.
  intros E t i e N H G. unfold tour_indices in H. apply in_flat_map in H as ((j & e') & H1 & H2).
  pose proof (repeat_spec _ _ _ H2) as Q. cbn in Q; subst j. apply in_enumerate in H1. cbn [fst snd] in *.
  assert (e' = e) by congruence. subst e'.
  rewrite closing_pairs_steps in H2. destruct (filter (edge_eqb e) (steps (t ++ firstn 1 t))) as [|e' l] eqn:Q; [destruct H2|].
  assert (I : In e' (filter (edge_eqb e) (steps (t ++ firstn 1 t)))) by (rewrite Q; now left).
  apply filter_In in I as (I & X). apply edge_eqb_iff in X. now subst.
Qed.
Lemma tour_indices_some : forall E t e, In e E -> In e (steps (t ++ firstn 1 t)) -> tour_indices E t <> [].
Proof.
  intros E t e H I Q. apply In_nth_error in H as (i & Hi).
  assert (X : In i (tour_indices E t)); [|rewrite Q in X; destruct X].
  unfold tour_indices. apply in_flat_map. exists (i, e). split; [now apply in_enumerate|]. cbn [fst snd].
  rewrite closing_pairs_steps. assert (J : In e (filter (edge_eqb e) (steps (t ++ firstn 1 t)))).
  { apply filter_In. split; [exact I|now apply edge_eqb_iff]. }
  destruct (filter (edge_eqb e) (steps (t ++ firstn 1 t))); [destruct J|now left].
Qed.

(** one edge is removed per listed path *)
Lemma subtours_inv : forall E intr paths r, NoDup E ->
  removed_subtours E intr paths (map (fun _ => false) paths) = Some r ->
  Forall2 (fun p e => In e E /\ In e (steps (p ++ firstn 1 p))) paths r.
Proof.
  intros E intr paths r N H. unfold removed_subtours in H.
  assert (G : forall l r0 r1, foldM (fun removed (pb : list nat * bool) =>
    if snd pb then Some removed
    else e <- weakest E intr (tour_indices E (fst pb)) ;; Some (removed ++ [e])) (combine l (map (fun _ => false) l)) r0 = Some r1 ->
    exists r2, r1 = r0 ++ r2 /\ Forall2 (fun p e => In e E /\ In e (steps (p ++ firstn 1 p))) l r2).
  { induction l as [|p l IH]; intros r0 r1 X; cbn [map combine foldM] in X.
    - injection X as <-. exists []. split; [now rewrite app_nil_r|constructor].
    - apply bind_Some in X as (r' & X1 & X). cbn [fst snd] in X1. apply bind_Some in X1 as (e & We & X1). injection X1 as <-.
      destruct (IH _ _ X) as (r2 & -> & F). exists (e :: r2). rewrite <- app_assoc. split; [reflexivity|]. constructor; [|exact F].
      apply weakest_in in We as (i & Hi & Ge). split; [now apply nth_error_In in Ge|]. eapply tour_indices_edge; eauto. }
  destruct (G _ _ _ H) as (r2 & -> & F). exact F.
Qed.
Lemma subtours_total : forall E intr paths, length intr = length E ->
  Forall (fun p => exists e, In e E /\ In e (steps (p ++ firstn 1 p))) paths ->
  exists r, removed_subtours E intr paths (map (fun _ => false) paths) = Some r.
Proof.
  intros E intr paths L F. unfold removed_subtours.
  match goal with |- exists r, foldM ?f _ _ = Some r =>
    assert (G : forall r0, exists r, foldM f (combine paths (map (fun _ => false) paths)) r0 = Some r); [|apply G] end.
  induction F as [|p l (e & H1 & H2) F IH]; intros r0; cbn [map combine foldM]; [eauto|]. cbn [fst snd].
  destruct (weakest_total E intr (tour_indices E p) L) as (e' & ->).
  - eapply tour_indices_some; eauto.
  - apply tour_indices_range.
  - cbn [bind]. apply IH.
Qed.

(** closing a loop twice adds no edge between different nodes *)
Lemma steps_snoc : forall l x, l <> [] -> steps (l ++ [x]) = steps l ++ [(last l 0, x)].
Proof.
  intros l x H. destruct l as [|y l]; [contradiction|]. clear H. revert y. induction l as [|z l IH]; intros y; [reflexivity|].
  change (steps ((y :: z :: l) ++ [x])) with ((y, z) :: steps ((z :: l) ++ [x])). rewrite IH. reflexivity.
Qed.
Lemma closed_steps : forall x l u v, u <> v ->
  In (u, v) (steps (((x :: l) ++ [x]) ++ firstn 1 ((x :: l) ++ [x]))) -> In (u, v) (steps ((x :: l) ++ [x])).
Proof.
  intros x l u v N H. change (firstn 1 ((x :: l) ++ [x])) with [x] in H. rewrite steps_snoc in H by discriminate.
  apply in_app_iff in H as [H|[H|[]]]; [exact H|]. rewrite last_last in H. injection H as <- <-. contradiction.
Qed.

(** every node of a closed walk has a predecessor and a successor on it *)
Lemma cycle_next : forall x l u, In u (x :: l) -> exists v, consecutive ((x :: l) ++ [x]) u v /\ In v (x :: l).
Proof.
  intros x l u H. apply in_split in H as (a & b & Q). destruct b as [|v b].
  - exists x. split; [|now left]. exists a, []. rewrite Q, <- app_assoc. reflexivity.
  - exists v. split.
    + exists a, (b ++ [x]). rewrite Q, <- app_assoc. reflexivity.
    + rewrite Q. apply in_or_app. right; right; now left.
Qed.
Lemma cycle_prev : forall x l v, In v (x :: l) -> exists u, consecutive ((x :: l) ++ [x]) u v /\ In u (x :: l).
Proof.
  intros x l v H. destruct H as [<-|H].
  - destruct (@exists_last _ (x :: l)) as (a & u & Q); [discriminate|]. exists u. split.
    + exists a, []. rewrite Q, <- app_assoc. reflexivity.
    + rewrite Q. apply in_or_app. right; now left.
  - apply in_split in H as (a & b & ->). destruct a as [|y a] using rev_ind.
    + exists x. split; [exists [], (b ++ [x]); reflexivity|now left].
    + exists y. split.
      * exists (x :: a), (b ++ [x]). cbn. rewrite <- !app_assoc. reflexivity.
      * right. apply in_or_app. left. apply in_or_app. right; now left.
Qed.
Lemma consecutive_in : forall x l u v, consecutive ((x :: l) ++ [x]) u v -> In u (x :: l) /\ In v (x :: l).
Proof.
  intros x l u v H. apply in_steps in H. rewrite steps_closed in H. split.
  - now apply in_combine_l in H.
  - apply in_combine_r in H. apply in_app_iff in H as [H|[<-|[]]]; [now right|now left].
Qed.

(** two cycles with a common node are the same up to rotation *)
Lemma follow : forall R, linear R -> forall l1 l2 x y z, NoDup (x :: l1) -> NoDup (x :: l2) -> ~ In z l1 -> ~ In z l2 ->
  path_in R (x :: l1 ++ [z]) -> path_in R (x :: l2 ++ [z]) -> y = z -> l1 = l2.
Proof.
  intros R (L & _) l1. induction l1 as [|a l1 IH]; intros [|b l2] x y z N1 N2 Z1 Z2 P1 P2 _; [reflexivity| | |].
  - exfalso. apply Z2. left. apply (L x); [apply P2; exists [], (l2 ++ [z]); reflexivity|].
    apply P1. exists [], []; reflexivity.
  - exfalso. apply Z1. left. apply (L x); [apply P1; exists [], (l1 ++ [z]); reflexivity|].
    apply P2. exists [], []; reflexivity.
  - assert (a = b).
    { apply (L x); [apply P1; exists [], (l1 ++ [z]); reflexivity|apply P2; exists [], (l2 ++ [z]); reflexivity]. }
    subst b. f_equal. inversion N1; inversion N2; subst. apply (IH l2 a z z); auto.
    + intros I; apply Z1; now right.
    + intros I; apply Z2; now right.
    + intros u v Q. apply P1. destruct Q as (s & t & Q). exists (x :: s), t. cbn in *. now rewrite Q.
    + intros u v Q. apply P2. destruct Q as (s & t & Q). exists (x :: s), t. cbn in *. now rewrite Q.
Qed.
Lemma cycles_meet : forall R c1 c2 x, linear R -> cycle R c1 -> cycle R c2 -> In x c1 -> In x c2 -> rotation c1 c2.
Proof.
  intros R c1 c2 x L H1 H2 I1 I2.
  assert (G : forall c, cycle R c -> In x c -> exists l, rotation c (x :: l) /\ cycle R (x :: l)).
  { intros c Hc Ic. apply in_split in Ic as (a & b & ->). exists (b ++ a).
    assert (Q : rotation (a ++ x :: b) (x :: b ++ a)) by (exists a, (x :: b); auto).
    split; [exact Q|]. exact (rotation_cycle _ _ _ Q Hc). }
  destruct (G c1 H1 I1) as (l1 & Q1 & (N1 & y1 & m1 & E1 & P1)). destruct (G c2 H2 I2) as (l2 & Q2 & (N2 & y2 & m2 & E2 & P2)).
  injection E1 as <- <-. injection E2 as <- <-.
  assert (l1 = l2).
  { inversion N1; inversion N2; subst. apply (follow R L l1 l2 x x x); auto. }
  subst l2. eapply rotation_trans; [exact Q1|]. now apply rotation_sym.
Qed.
(** different loops of such a graph are disjoint *)
Lemma loops_disjoint : forall R loops, linear R -> Forall (cycle R) loops ->
  (forall i j l1 l2 c, i < j -> nth_error loops i = Some l1 -> nth_error loops j = Some l2 -> ~ rotation l1 (l2 ++ c)) ->
  NoDup (concat loops).
Proof.
  intros R loops L F D. induction F as [|l loops Hl F IH]; [constructor|]. cbn.
  apply nodup_app; [apply Hl| |].
  - apply IH. intros i j l1 l2 c H G1 G2. apply (D (S i) (S j) l1 l2 c); [lia|exact G1|exact G2].
  - intros x Hx Hy. apply in_concat in Hy as (l2 & Hl2 & Hx2). pose proof Hl2 as Hl3. apply In_nth_error in Hl2 as (j & Hj).
    apply (D 0 (S j) l l2 []); [lia|reflexivity|exact Hj|]. rewrite app_nil_r.
    rewrite Forall_forall in F. apply (cycles_meet R _ _ x); auto.
Qed.

(** ** Reading the results *)
Lemma pairs_of_flat : forall es, pairs_of (flat_edges es) = Some es.
Proof.
  unfold flat_edges. induction es as [|(u & v) es IH]; [reflexivity|]. cbn in *. rewrite IH. reflexivity.
Qed.
Lemma cut_concat : forall (loops : list (list nat)) rest, cut (map (@length nat) loops) (concat loops ++ rest) = loops.
Proof.
  induction loops as [|l loops IH]; intros rest; [reflexivity|]. cbn. rewrite <- app_assoc.
  rewrite firstn_app, Nat.sub_diag, firstn_all. cbn. rewrite app_nil_r, skipn_app, Nat.sub_diag, skipn_all. cbn.
  now rewrite IH.
Qed.
Lemma read_paths_ok : forall (loops : list (list nat)) rest k, loops <> [] -> Forall (fun l => l <> []) loops ->
  read_paths (map (@length nat) loops ++ repeat 0 k) (concat loops ++ rest) = Some loops.
Proof.
  intros loops rest k N F. unfold read_paths. rewrite filter_app.
  assert (E1 : filter (fun k => negb (k =? 0)) (map (@length nat) loops) = map (@length nat) loops).
  { clear N. induction F as [|l loops Hl F IH]; [reflexivity|]. cbn. destruct l; [contradiction|]. cbn. now rewrite IH. }
  assert (E2 : filter (fun k => negb (k =? 0)) (repeat 0 k) = []) by (induction k; auto).
  rewrite E1, E2, app_nil_r. destruct loops as [|l loops]; [contradiction|]. cbn [nonempty map].
  change (length l :: map (length (A:=nat)) loops) with (map (@length nat) (l :: loops)).
  assert (E3 : list_sum (map (@length nat) (l :: loops)) = length (concat (l :: loops))).
  { clear. induction (l :: loops) as [|a b IH]; [reflexivity|].
    change (length a + list_sum (map (@length nat) b) = length (a ++ concat b)). rewrite IH. symmetry. apply app_length. }
  rewrite E3, firstn_app, Nat.sub_diag, firstn_all. cbn [firstn].
  change (nonempty (map (@length nat) (l :: loops))) with true. cbn [app]. f_equal. apply (cut_concat (l :: loops) []).
Qed.
Lemma read_paths_none : forall k flat, read_paths (repeat 0 k) flat = None.
Proof.
  intros k flat. unfold read_paths. assert (E : filter (fun k => negb (k =? 0)) (repeat 0 k) = []) by (induction k; auto).
  rewrite E. reflexivity.
Qed.
Lemma read_tour_none : forall k, read_tour (repeat 0 k) = None.
Proof.
  intros k. unfold read_tour. assert (E : forallb (fun x => x =? 0) (repeat 0 k) = true) by (induction k; auto).
  now rewrite E.
Qed.
Lemma read_tour_some : forall t x, In x t -> x <> 0 -> read_tour t = Some t.
Proof.
  intros t x H N. unfold read_tour. destruct (forallb _ t) eqn:Q; [|reflexivity].
  rewrite forallb_forall in Q. specialize (Q x H). apply Nat.eqb_eq in Q. contradiction.
Qed.
Lemma close_paths_eq : forall loops, Forall (fun l => l <> []) loops ->
  close_paths loops = map (fun l => l ++ firstn 1 l) loops.
Proof.
  intros loops F. unfold close_paths. induction F as [|l loops Hl F IH]; [reflexivity|]. cbn.
  rewrite IH. destruct l; [contradiction|]. reflexivity.
Qed.

(** ** When a tour is returned *)
Section Returns.
Variables (n : nat) (E : list (nat * nat)) (C : list (list Qc)).
Hypothesis HE : complete n E.
Hypothesis SC : shape n n C.

Lemma acyclic_end : forall R e, NoDup R -> linear R -> In e R -> (forall c, ~ cycle R c) ->
  exists u v, In (u, v) R /\ sink R v.
Proof.
  intros R (u & v) N L H A. destruct (get_paths_ok R N L) as (ps & _ & F & _ & G & _).
  destruct (G u v H) as [(p & Hp & Q)|(c & Hc & _)]; [|destruct (A c Hc)].
  rewrite Forall_forall in F. destruct (F p Hp) as (_ & _ & _ & P & S).
  destruct Q as (a & b & Q). destruct (@exists_last _ (v :: b)) as (b' & z & Qb); [discriminate|].
  destruct (@exists_last _ (u :: b')) as (b2 & y & Qb2); [discriminate|].
  assert (Ep : p = (a ++ b2) ++ [y; z]).
  { rewrite Q, Qb. change (u :: b' ++ [z]) with ((u :: b') ++ [z]). rewrite Qb2, <- !app_assoc. reflexivity. }
  exists y, z. split.
  - apply P. exists (a ++ b2), []. exact Ep.
  - rewrite Ep in S. change [y; z] with ([y] ++ [z]) in S. rewrite app_assoc, last_last in S. exact S.
Qed.

(** Breaking pairwise disjoint cycles of a linear graph leaves an edge into a node without a successor. *)
Lemma broken_end : forall S l0 loops r, linear S -> incl S E -> Forall (cycle S) (l0 :: loops) -> NoDup (concat (l0 :: loops)) ->
  Forall2 (fun p e => In e E /\ In e (steps (p ++ firstn 1 p))) (map (fun l => l ++ firstn 1 l) (l0 :: loops)) r ->
  exists u v, In (u, v) (kept r S) /\ sink (kept r S) v.
Proof.
  intros S l0 loops r L I F N F2.
  assert (K : forall l e, cycle S l -> In e E -> In e (steps ((l ++ firstn 1 l) ++ firstn 1 (l ++ firstn 1 l))) ->
    In e S /\ In (fst e) l /\ In (snd e) l /\ exists z, In (z, fst e) S /\ In z l).
  { intros l (a & b) (Nl & x & l' & -> & P) He Hs. cbn [firstn] in Hs.
    assert (Nab : a <> b) by (intros ->; apply (proj2 HE) in He; lia).
    apply (closed_steps x l' a b Nab) in Hs. apply in_steps in Hs. cbn [fst snd].
    destruct (consecutive_in _ _ _ _ Hs) as (Ia & Ib). split; [now apply P|]. split; [exact Ia|]. split; [exact Ib|].
    destruct (cycle_prev x l' a Ia) as (z & Hz & Iz). exists z. split; [now apply P|exact Iz]. }
  inversion F as [|? ? H0 F']; subst. cbn [map] in F2. inversion F2 as [|? (a & b) ? r' (He & Hs) F2']; subst.
  destruct (K l0 (a, b) H0 He Hs) as (Sab & Ia & Ib & z & Sz & Iz). cbn [fst snd] in *.
  exists z, a. split.
  - apply in_kept. split; [exact Sz|]. intros [Q|Q].
    + injection Q as -> ->. apply I, (proj2 HE) in Sz. lia.
    + assert (X : exists l, In l loops /\ In a l).
      { clear -F' F2' K Q. revert r' F2' Q. induction loops as [|l loops IH]; intros r' F2' Q; cbn [map] in F2'; inversion F2' as [|? e ? r2 (He & Hs) F3]; subst; [destruct Q|].
        inversion F' as [|? ? Hl F'']; subst. destruct Q as [->|Q].
        - destruct (K l (z, a) Hl He Hs) as (_ & _ & X & _). exists l. split; [now left|exact X].
        - destruct (IH F'' r2 F3 Q) as (l' & A & B). exists l'. split; [now right|exact B]. }
      destruct X as (l & Hl & Hal). cbn in N.
      revert N Ia. clear -Hl Hal. intros N Ia. induction l0 as [|y l0 IH]; [destruct Ia|]. inversion N as [|? ? N1 N2]; subst.
      destruct Ia as [->|Ia]; [|auto]. apply N1. apply in_or_app. right. apply in_concat. eauto.
  - intros b' Hb. apply in_kept in Hb as (Hb & Nb). apply Nb. left. f_equal. apply (proj1 L a); assumption.
Qed.

Lemma returns : forall d loops, instance n E C d -> linear (d_selected d) -> d_selected d <> [] ->
  length (d_intr d) = length E -> Forall (cycle (d_selected d)) loops -> NoDup (concat loops) ->
  (loops = [] -> forall c, ~ cycle (d_selected d) c) ->
  d_paths d = (match loops with [] => None | _ => Some (map (fun l => l ++ firstn 1 l) loops) end) ->
  (d_kopt d = true -> 5 <= n) -> exists t c, run_post_processing d = Some (t, c).
Proof.
  intros d loops Hd L Ne Li F Nl A Dp Hk.
  pose proof Hd as (_ & De & _ & _ & Ns & Is).
  assert (X : exists R u v, remaining_edges d = Some R /\ In (u, v) R /\ sink R v).
  { unfold remaining_edges. rewrite removed_degree_linear by assumption. cbn [bind]. rewrite Dp.
    assert (Ef : forall l : list (nat * nat), filter (fun e => negb (edge_mem e [])) l = l) by (induction l as [|? ? IH]; cbn in *; congruence).
    destruct loops as [|l0 loops].
    - cbn [bind]. rewrite Ef. destruct (d_selected d) as [|e S] eqn:Q; [contradiction|]. rewrite <- Q in *.
      destruct (acyclic_end (d_selected d) e Ns L) as (u & v & H1 & H2); [rewrite Q; now left|now apply A|].
      exists (d_selected d), u, v. auto.
    - rewrite cleaning_nothing, De.
      destruct (subtours_total E (d_intr d) (map (fun l => l ++ firstn 1 l) (l0 :: loops)) Li) as (r & Er).
      { apply Forall_forall. intros p Hp. apply in_map_iff in Hp as (l & <- & Hl). rewrite Forall_forall in F.
        destruct (F l Hl) as (_ & x & l' & -> & P). cbn [firstn].
        destruct (cycle_next x l' x (or_introl eq_refl)) as (v & Hv & _). exists (x, v). split; [now apply Is, P|].
        apply in_steps. destruct Hv as (a & b & Q). exists a, (b ++ [x]). transitivity (((x :: l') ++ [x]) ++ [x]); [reflexivity|].
        rewrite Q, <- app_assoc. reflexivity. }
      rewrite Er. cbn [bind]. rewrite Ef.
      apply subtours_inv in Er; [|apply HE].
      destruct (broken_end (d_selected d) l0 loops r L Is F Nl Er) as (u & v & H1 & H2).
      eexists _, u, v. split; [reflexivity|]. split; [exact H1|exact H2]. }
  destruct X as (R & u & v & HR & H1 & H2). exact (run_total n E C HE SC d R u v Hd HR H1 H2 Hk).
Qed.
End Returns.
