(** * Property C102: when the pure Python TSP solver ends its own process. *)
From Verif Require Import Num NumFacts Arr ArrFacts M_InOut M_Runs M_Tsp_Loops M_Tsp_Py.
From Verif Require Import M_PyRef M_PyRef_Run M_PyRef_Tsp.
Local Open Scope nat_scope.

(** [u] and [v] are joined by an edge of the selection, in one direction or the other *)
Definition joined (sel : list (nat * nat)) (u v : nat) : Prop := In (u, v) sel \/ In (v, u) sel.
Definition has_nan (m : list (list num)) : Prop := exists r, In r m /\ In NaN r.
Definition all_finite (m : list (list num)) : Prop := forall r x, In r m -> In x r -> exists q, x = Fin q.

(** ** The test of a round *)
Lemma same_pair_spec a u v : same_pair (u, v) a = true <-> a = (u, v) \/ a = (v, u).
Proof.
  destruct a as (x & y). unfold same_pair. cbn [fst snd].
  rewrite orb_true_iff, !andb_true_iff, !Nat.eqb_eq. split.
  - intros [(-> & ->)|(-> & ->)]; auto.
  - intros [H|H]; injection H as -> ->; auto.
Qed.
Lemma pairs_in a b : forallb (fun x => existsb (same_pair x) b) a = true <-> forall u v, In (u, v) a -> joined b u v.
Proof.
  rewrite forallb_forall. split; intros H.
  - intros u v I. apply H, existsb_exists in I as (y & Iy & S). apply same_pair_spec in S as [->| ->]; [left|right]; exact Iy.
  - intros (u & v) I. apply existsb_exists. destruct (H u v I) as [J|J]; eexists; (split; [exact J|]); apply same_pair_spec; auto.
Qed.
Lemma same_selection_spec a b : py_same_selection a b = true <->
  length a = length b /\ forall u v, joined a u v <-> joined b u v.
Proof.
  unfold py_same_selection. rewrite !andb_true_iff, Nat.eqb_eq, !pairs_in. split.
  - intros ((L & A) & B). split; [exact L|]. intros u v. split; intros [I|I]; [apply A in I|apply A in I|apply B in I|apply B in I];
      destruct I; unfold joined; auto.
  - intros (L & H). split; [split; [exact L|]|]; intros u v I; apply H; left; exact I.
Qed.
Lemma nan_spec m : existsb (existsb is_nan) m = true <-> has_nan m.
Proof.
  rewrite existsb_exists. unfold has_nan. split; intros (r & I & H); exists r; (split; [exact I|]).
  - apply existsb_exists in H as (x & Ix & N). destruct x; try discriminate. exact Ix.
  - apply existsb_exists. exists NaN. auto.
Qed.
Lemma bind_some {A B} (x : option A) (f : A -> option B) y : bind x f = Some y <-> exists a, x = Some a /\ f a = Some y.
Proof. destruct x as [a|]; cbn; split; [eauto|intros (? & [= <-] & H); exact H|discriminate|intros (? & H & _); discriminate]. Qed.

Lemma rounds_exit o d : forall k st, py_rounds k o d st = Some PyExit <->
  exists j q, j < k /\ py_rounds j o d st = Some (PyRunning q) /\ py_round o d q = Some None.
Proof.
  induction k as [|k IH]; intros st.
  - split; [|intros (? & ? & ? & _); lia]. cbn [py_rounds]. destruct (_ && _ && _); discriminate.
  - cbn [py_rounds]. destruct (negb (pt_satisfied st) && po_aug o && negb (pt_tour_flag st)) eqn:B.
    + split.
      * intros H. apply bind_some in H as ([st'|] & R & H).
        -- apply IH in H as (j & q & Hj & H1 & H2). exists (S j), q. split; [lia|]. split; [|exact H2].
           cbn [py_rounds]. rewrite B, R. exact H1.
        -- exists 0, st. split; [lia|]. split; [cbn [py_rounds]; rewrite B; reflexivity|exact R].
      * intros (j & q & Hj & H1 & H2). destruct j as [|j]; cbn [py_rounds] in H1; rewrite B in H1.
        -- injection H1 as <-. rewrite H2. reflexivity.
        -- apply bind_some in H1 as ([st'|] & R & H1); [|discriminate]. rewrite R. cbn [bind]. apply IH.
           exists j, q. split; [lia|auto].
    + split; [discriminate|]. intros (j & q & _ & H & _). destruct j; cbn [py_rounds] in H; rewrite B in H; discriminate.
Qed.
Lemma round_exit o d q : py_round o d q = Some None <->
  exists m intr hd sel cost, py_iterate_augmented o d (pt_deltas q) (pt_msgs_of q) = Some (m, intr) /\
    py_hard_decision o d intr = Some (hd, sel, cost) /\ length sel = length (pt_selected q) /\
    (forall u v, joined sel u v <-> joined (pt_selected q) u v) /\ has_nan (pm_e2d m).
Proof.
  unfold py_round. split.
  - intros H. apply bind_some in H as ((m & intr) & E1 & H). apply bind_some in H as (((hd & sel) & cost) & E2 & H).
    cbn [fst snd] in H. destruct (py_same_selection _ _) eqn:S; cbn [andb] in H.
    2:{ apply bind_some in H as (? & _ & H). discriminate. }
    destruct (existsb _ _) eqn:N in H. 2:{ apply bind_some in H as (? & _ & H). discriminate. }
    apply same_selection_spec in S as (S1 & S2). apply nan_spec in N. exists m, intr, hd, sel, cost. auto 10.
  - intros (m & intr & hd & sel & cost & E1 & E2 & S1 & S2 & N). rewrite E1. cbn [bind]. rewrite E2. cbn [bind fst snd].
    rewrite (proj2 (same_selection_spec _ _) (conj S1 S2)), (proj2 (nan_spec _) N). reflexivity.
Qed.

(** The program ends itself exactly when, in some round, the same number of edges and the same pairs
    of nodes are selected as before it and some message from edges to degree constraints is not a
    number. *)
Theorem C102_exit : forall k o n cm,
  py_tsp_reference k o n cm = Some PyExit <->
  exists j q d m intr hd sel cost, j < k /\ py_tsp_reference j o n cm = Some (PyRunning q) /\
    py_tsp_initialize n cm = Some d /\
    py_iterate_augmented o d (pt_deltas q) (pt_msgs_of q) = Some (m, intr) /\
    py_hard_decision o d intr = Some (hd, sel, cost) /\ length sel = length (pt_selected q) /\
    (forall u v, joined sel u v <-> joined (pt_selected q) u v) /\ has_nan (pm_e2d m).
Proof.
  intros k o n cm. unfold py_tsp_reference. split.
  - intros H. apply bind_some in H as (d & E1 & H). apply bind_some in H as ((m0 & intr0) & E2 & H).
    apply bind_some in H as (dec & E3 & H). apply bind_some in H as (st & E4 & H). cbn zeta in H.
    apply rounds_exit in H as (j & q & Hj & H1 & H2). apply round_exit in H2 as (m & intr & hd & sel & cost & H2).
    exists j, q, d, m, intr, hd, sel, cost. split; [exact Hj|]. split; [|auto].
    rewrite E1. cbn [bind]. rewrite E2. cbn [bind]. rewrite E3. cbn [bind]. rewrite E4. exact H1.
  - intros (j & q & d & m & intr & hd & sel & cost & Hj & H & E1 & H2). rewrite E1 in *. cbn [bind] in *.
    apply bind_some in H as ((m0 & intr0) & E2 & H). rewrite E2. cbn [bind].
    apply bind_some in H as (dec & E3 & H). rewrite E3. cbn [bind]. apply bind_some in H as (st & E4 & H). rewrite E4. cbn [bind].
    apply rounds_exit. exists j, q. split; [exact Hj|]. split; [exact H|]. apply round_exit. exists m, intr, hd, sel, cost. auto.
Qed.

(** ** Finite costs *)
Definition fin1 (x : num) : Prop := exists q, x = Fin q.
Definition fv (v : list num) : Prop := Forall fin1 v.
Definition fm (m : list (list num)) : Prop := Forall fv m.

Lemma fin0 : fin1 n0. Proof. eexists; reflexivity. Qed.
Lemma fin_add a b : fin1 a -> fin1 b -> fin1 (nadd a b).
Proof. intros (x & ->) (y & ->). eexists; reflexivity. Qed.
Lemma fin_mul a b : fin1 a -> fin1 b -> fin1 (nmul a b).
Proof. intros (x & ->) (y & ->). eexists; reflexivity. Qed.
Lemma fin_opp a : fin1 a -> fin1 (nopp a).
Proof. intros (x & ->). eexists; reflexivity. Qed.
Lemma fin_min a b : fin1 a -> fin1 b -> fin1 (nmin a b).
Proof. intros A B. unfold nmin. destruct (nlt b a); assumption. Qed.
Lemma fin_npmin a b : fin1 a -> fin1 b -> fin1 (np_minimum a b).
Proof. intros A B. unfold np_minimum, nmin. destruct (is_nan a), (is_nan b), (nlt b a); assumption. Qed.
Lemma fin_npmax a b : fin1 a -> fin1 b -> fin1 (np_maximum a b).
Proof. intros A B. unfold np_maximum, nmax. destruct (is_nan a), (is_nan b), (nlt a b); assumption. Qed.
Lemma fin_fold (f : num -> num -> num) l : (forall a b, fin1 a -> fin1 b -> fin1 (f a b)) -> fv l -> forall a, fin1 a ->
  fin1 (fold_left f l a).
Proof. intros Hf H. induction H as [|x l Hx H IH]; intros a A; cbn; auto. Qed.
Lemma fin_sum l : fv l -> fin1 (np_sum l).
Proof. intros H. apply fin_fold; auto using fin_add, fin0. Qed.

Lemma P_get {A} (P : A -> Prop) l i x : Forall P l -> get l i = Some x -> P x.
Proof. intros H G. rewrite Forall_forall in H. apply H. exact (nth_error_In _ _ G). Qed.
Lemma P_upd {A} (P : A -> Prop) l i x : Forall P l -> P x -> Forall P (upd l i x).
Proof. intros H X. revert i. induction H as [|y l Hy H IH]; intros [|i]; cbn; auto. Qed.
Lemma P_set {A} (P : A -> Prop) l i x l' : Forall P l -> P x -> set l i x = Some l' -> Forall P l'.
Proof. unfold set. intros H X. destruct (_ <? _); [intros [= <-]; apply P_upd; auto|discriminate]. Qed.
Lemma fin_get2 m i j x : fm m -> get2 m i j = Some x -> fin1 x.
Proof. unfold get2. intros H G. apply bind_some in G as (r & G1 & G2). eapply P_get; [eapply P_get; [exact H|exact G1]|exact G2]. Qed.
Lemma fin_set2 m i j x m' : fm m -> fin1 x -> set2 m i j x = Some m' -> fm m'.
Proof.
  unfold set2. intros H X G. apply bind_some in G as (r & G1 & G). apply bind_some in G as (r' & G2 & G).
  eapply P_set; [exact H| |exact G]. eapply P_set; [eapply P_get; [exact H|exact G1]|exact X|exact G2].
Qed.
Lemma P_mapM {A B} (P : B -> Prop) (f : A -> option B) : (forall a b, f a = Some b -> P b) -> forall l r, mapM f l = Some r -> Forall P r.
Proof.
  intros Hf. induction l as [|a l IH]; intros r H; cbn in H; [injection H as <-; constructor|].
  apply bind_some in H as (b & E1 & H). apply bind_some in H as (bs & E2 & H). injection H as <-. constructor; eauto.
Qed.
Lemma P_foldM {S A} (P : S -> Prop) (f : S -> A -> option S) : (forall s a s', P s -> f s a = Some s' -> P s') ->
  forall l s s', P s -> foldM f l s = Some s' -> P s'.
Proof.
  intros Hf. induction l as [|a l IH]; intros s s' H E; cbn in E; [injection E as <-; exact H|].
  apply bind_some in E as (s1 & E1 & E). eauto.
Qed.
Lemma P_for {S} (P : S -> Prop) (f : S -> nat -> option S) k : (forall s i s', P s -> f s i = Some s' -> P s') ->
  forall s s', P s -> for_up 0 k s f = Some s' -> P s'.
Proof. intros Hf s s' H E. unfold for_up in E. eapply (P_foldM P f); eauto. Qed.
Lemma fv_repeat k : fv (repeat n0 k).
Proof. induction k; cbn; constructor; auto using fin0. Qed.
Lemma fm_zeros a b : fm (np_zeros a b).
Proof. unfold np_zeros. induction a; cbn; constructor; auto using fv_repeat. Qed.
Lemma fv_zip a : forall b, fv a -> fv b -> fv (zip_with nadd a b).
Proof.
  unfold zip_with. induction a as [|x a IH]; intros [|y b] A B; cbn; try constructor; inversion A; inversion B; subst; auto using fin_add.
  apply IH; auto.
Qed.
Lemma fv_add a b r : fv a -> fv b -> np_add a b = Some r -> fv r.
Proof. unfold np_add. intros A B. destruct (_ =? _); [intros [= <-]; apply fv_zip; auto|discriminate]. Qed.
Lemma fm_add2 a b r : fm a -> fm b -> np_add2 a b = Some r -> fm r.
Proof.
  unfold np_add2. destruct (_ =? _); [|discriminate]. revert b r. induction a as [|x a IH]; intros b r A B H.
  - injection H as <-. constructor.
  - destruct b as [|y b]; [injection H as <-; constructor|]. inversion A; inversion B; subst. cbn [combine mapM fst snd] in H.
    apply bind_some in H as (z & E1 & H). apply bind_some in H as (zs & E2 & H). injection H as <-.
    constructor; [eapply fv_add; [| |exact E1]; assumption|eapply IH; [| |exact E2]; assumption].
Qed.
Lemma fm_scale c a : fin1 c -> fm a -> fm (np_scale c a).
Proof.
  intros C H. unfold np_scale. apply Forall_map. eapply Forall_impl; [|exact H]. intros v V. apply Forall_map.
  eapply Forall_impl; [|exact V]. intros x X. apply fin_mul; auto.
Qed.
Lemma P_take {A} (P : A -> Prop) v idx r : Forall P v -> np_take v idx = Some r -> Forall P r.
Proof. intros H. apply P_mapM. intros i x G. eapply P_get; eauto. Qed.
Lemma fv_put v idx vals r : fv v -> fv vals -> np_put v idx vals = Some r -> fv r.
Proof.
  unfold np_put. intros V W. destruct (_ =? _); [|discriminate]. revert v V vals W. induction idx as [|i idx IH]; intros v V vals W H.
  - injection H as <-. exact V.
  - destruct vals as [|x vals]; [injection H as <-; exact V|]. inversion W; subst. cbn in H. apply bind_some in H as (v' & E1 & H).
    eapply IH; [| |exact H]; [eapply P_set; [exact V| |exact E1]; assumption|assumption].
Qed.
Lemma fv_sums m : fm m -> fv (row_sums m).
Proof. intros H. apply Forall_map. eapply Forall_impl; [|exact H]. intros v. apply fin_sum. Qed.
Lemma fv_column m j r : fm m -> column m j = Some r -> fv r.
Proof.
  unfold column. intros H. revert r. induction H as [|v m V H IH]; intros r E; cbn in E; [injection E as <-; constructor|].
  apply bind_some in E as (x & E1 & E). apply bind_some in E as (xs & E2 & E). injection E as <-.
  constructor; [eapply P_get; eauto|apply IH, E2].
Qed.
Lemma fv_column_sums m r : fm m -> column_sums m = Some r -> fv r.
Proof.
  unfold column_sums. intros H E. apply bind_some in E as (r0 & _ & E). revert E. apply P_mapM. intros j x G.
  apply bind_some in G as (c & G1 & G2). injection G2 as <-. apply fin_sum. eapply fv_column; eauto.
Qed.
Lemma fm_transpose k m r : fm m -> np_transpose k m = Some r -> fm r.
Proof. intros H. apply P_mapM. intros j x G. eapply fv_column; eauto. Qed.

Lemma fm_pass conn rd best (wr : list (list num) -> nat -> num -> option (list (list num))) out r :
  (forall e x, rd e = Some x -> fin1 x) -> (forall l x, fv l -> best l = Some x -> fin1 x) ->
  (forall m e x m', fm m -> fin1 x -> wr m e x = Some m' -> fm m') -> fm out ->
  py_others_pass conn rd best wr out = Some r -> fm r.
Proof.
  intros Hr Hb Hw. unfold py_others_pass. apply P_for. intros s i s' S E.
  apply bind_some in E as (vals & E1 & E). apply bind_some in E as (x & E2 & E). apply bind_some in E as (c & _ & E).
  eapply Hw; [exact S| |exact E]. eapply Hb; [|exact E2]. revert E1. apply P_mapM. exact Hr.
Qed.
Lemma fin_neg_min l x : fv l -> neg_np_min l = Some x -> fin1 x.
Proof.
  unfold neg_np_min, np_min. intros H E. destruct H as [|a l A H]; [discriminate|]. cbn in E. injection E as <-.
  apply fin_opp, fin_fold; auto using fin_npmin.
Qed.
Lemma fin_neg_clamped l x : fv l -> neg_clamped_min l = Some x -> fin1 x.
Proof.
  unfold neg_clamped_min, py_min. intros H E. destruct H as [|a l A H]; [discriminate|]. cbn [bind] in E. injection E as <-.
  apply fin_opp, fin_npmax; [apply fin_fold; auto using fin_min|apply fin0].
Qed.
Lemma fm_degree n e E m r : fm m -> py_degree_update n e E m = Some r -> fm r.
Proof.
  intros H. unfold py_degree_update. apply P_for; [|apply fm_zeros]. intros s i s' S G. apply bind_some in G as (s1 & G1 & G2).
  assert (S1 : fm s1).
  { eapply fm_pass; [| |  |exact S|exact G1]; [intros ? ? X; exact (fin_get2 _ _ _ _ H X)|exact fin_neg_min|intros ? ? ? ? X Y Z; exact (fin_set2 _ _ _ _ _ X Y Z)]. }
  eapply fm_pass; [| |  |exact S1|exact G2]; [intros ? ? X; exact (fin_get2 _ _ _ _ H X)|exact fin_neg_min|intros ? ? ? ? X Y Z; exact (fin_set2 _ _ _ _ _ X Y Z)].
Qed.
Lemma fm_subtour e D m r : fm m -> py_subtour_update e D m = Some r -> fm r.
Proof.
  intros H E. unfold py_subtour_update in E. apply bind_some in E as (x & E1 & E2). eapply fm_transpose; [|exact E2].
  revert E1. apply P_for; [|apply fm_zeros]. intros s i s' S G. apply bind_some in G as (dl & _ & G).
  eapply fm_pass; [| |  |exact S|exact G]; [intros ? ? X; exact (fin_get2 _ _ _ _ H X)|exact fin_neg_clamped|intros ? ? ? ? X Y Z; exact (fin_set2 _ _ _ _ _ X Y Z)].
Qed.
Lemma fm_flip E m r : fm m -> py_flip E m = Some r -> fm r.
Proof.
  intros H. unfold py_flip. apply P_for; [|exact H]. intros s i s' S G. apply bind_some in G as ((u & v) & _ & G).
  apply bind_some in G as (a & G1 & G). apply bind_some in G as (f & G2 & G). apply bind_some in G as (b & G3 & G).
  eapply fin_set2; [|eapply fin_get2; [exact H|exact G3]|exact G]. eapply fin_set2; [exact S|eapply fin_get2; [exact H|exact G1]|exact G2].
Qed.
Lemma fm_put2 E (z0 : list (list num)) (rd : nat -> nat -> nat -> option num) k r :
  (forall i u v x, rd i u v = Some x -> fin1 x) -> fm z0 ->
  for_up 0 k z0 (fun z i => ' (u, v) <- get E i ;; x <- rd i u v ;; z <- set2 z i u x ;; set2 z i v x) = Some r -> fm r.
Proof.
  intros Hr Z. apply P_for; [|exact Z]. intros s i s' S G. apply bind_some in G as ((u & v) & _ & G).
  apply bind_some in G as (x & G1 & G). apply bind_some in G as (z & G2 & G). apply Hr in G1.
  eapply fin_set2; [|exact G1|exact G]. eapply fin_set2; [exact S|exact G1|exact G2].
Qed.
Lemma fm_e2d_relaxed E C m r : fm C -> fm m -> py_edge_to_degree_relaxed E C m = Some r -> fm r.
Proof. intros HC H G. apply bind_some in G as (f & G1 & G). eapply fm_add2; [|exact HC|exact G]. eapply fm_flip; eauto. Qed.
Lemma fm_e2d_augmented E C m s r : fm C -> fm m -> fm s -> py_edge_to_degree_augmented E C m s = Some r -> fm r.
Proof.
  intros HC H S G. unfold py_edge_to_degree_augmented in G. apply bind_some in G as (c & G1 & G). apply bind_some in G as (f & G2 & G).
  cbn zeta in G. apply bind_some in G as (z & G3 & G). apply bind_some in G as (y & G4 & G).
  apply fv_column_sums in G1; [|exact S]. apply fm_flip in G2; [|exact H].
  eapply fm_add2; [|exact HC|exact G]. eapply fm_add2; [|exact G2|exact G4].
  eapply (fm_put2 E _ (fun i _ _ => get c i)); [| |exact G3].
  - intros i _ _ x X. eapply P_get; eauto.
  - apply Forall_map, Forall_forall. intros l _. apply fv_repeat.
Qed.
Lemma fm_e2s e D cost deg sub r : fv cost -> fm deg -> fm sub -> py_edge_to_subtour e D cost deg sub = Some r -> fm r.
Proof.
  intros C H S. unfold py_edge_to_subtour. destruct (_ =? _).
  - intros G. apply bind_some in G as (dl & _ & G). apply bind_some in G as (a & G1 & G). apply bind_some in G as (c & G2 & G).
    apply bind_some in G as (v & G3 & G). apply bind_some in G as (row & G4 & G). injection G as <-.
    constructor; [|constructor]. eapply fv_put; [apply fv_repeat| |exact G4]. eapply fv_add; [| |exact G3].
    + eapply P_take; [apply fv_sums, H|exact G1].
    + eapply P_take; [exact C|exact G2].
  - apply P_mapM. intros s x G. apply bind_some in G as (dl & _ & G). apply bind_some in G as (rows & G1 & G).
    apply bind_some in G as (sd & G2 & G). apply bind_some in G as (c & G3 & G). apply bind_some in G as (sc & G4 & G).
    apply bind_some in G as (rem & G5 & G). apply bind_some in G as (sums & G6 & G). apply bind_some in G as (sv & G7 & G).
    apply bind_some in G as (ss & G8 & G). apply bind_some in G as (y & G9 & G).
    eapply fv_add; [| |exact G].
    + eapply fv_add; [| |exact G9].
      * eapply fv_put; [apply fv_repeat| |exact G2]. apply fv_sums. eapply P_take; [exact H|exact G1].
      * eapply fv_put; [apply fv_repeat| |exact G8]. eapply P_take; [|exact G7]. eapply fv_column_sums; [|exact G6].
        eapply P_take; [exact S|exact G5].
    + eapply fv_put; [apply fv_repeat| |exact G4]. eapply P_take; [exact C|exact G3].
Qed.
Definition fo (x : option (list (list num))) : Prop := forall m, x = Some m -> fm m.
Lemma fm_filtering b a i D old m old' : (b = true -> fin1 a) -> fm D -> fo old ->
  py_filtering b a i D old = Some (m, old') -> fm m /\ fo old'.
Proof.
  intros A HD O. unfold py_filtering. destruct b; cbn [negb andb].
  2:{ rewrite !andb_false_r. cbn [andb]. intros [= <- <-]. auto. }
  specialize (A eq_refl). assert (B : fin1 (nsub n1 a)) by (apply fin_add; [eexists; reflexivity|apply fin_opp, A]).
  assert (J : forall x, fm x -> fo (Some x)) by (intros x X y [= <-]; exact X).
  destruct (_ && _ && _).
  - cbn zeta. intros [= <- <-]. split; [|apply J]; apply fm_scale; auto.
  - destruct (_ && _ && _); [|discriminate]. intros G. apply bind_some in G as (ol & -> & G). apply bind_some in G as (x & G1 & G).
    injection G as <- <-. assert (fm x) by (eapply fm_add2; [| |exact G1]; apply fm_scale; auto; apply O; reflexivity). auto.
Qed.

Definition fin_all (m : pt_msgs) : Prop :=
  fm (pm_e2d m) /\ fo (pm_deg_old m) /\ fm (pm_sub m) /\ fo (pm_sub_old m).
Definition fin_data (d : pt_data) : Prop := fm (pd_cm d) /\ fv (pd_cost d) /\ fm (pd_degree_cost d).
Lemma relaxed_finite o d m i m' : (po_filt o = true -> fin1 (po_alpha o)) -> fin_data d -> fin_all m ->
  py_relaxed_step o d m i = Some m' -> fin_all m'.
Proof.
  intros A (D1 & D2 & D3) (M1 & M2 & M3 & M4) G. unfold py_relaxed_step in G. apply bind_some in G as (dm & G1 & G).
  apply bind_some in G as ((deg & old) & G2 & G). apply bind_some in G as (e2d & G3 & G). injection G as <-.
  apply fm_degree in G1; [|exact M1]. apply fm_filtering in G2 as (F1 & F2); auto. apply fm_e2d_relaxed in G3; auto.
  repeat split; cbn; auto.
Qed.
Lemma augmented_finite o d D m i m' : (po_filt o = true -> fin1 (po_alpha o)) -> fin_data d -> fin_all m ->
  py_augmented_step o d D m i = Some m' -> fin_all m'.
Proof.
  intros A (D1 & D2 & D3) (M1 & M2 & M3 & M4) G. unfold py_augmented_step in G. cbn zeta in G. apply bind_some in G as (dm & G1 & G).
  apply bind_some in G as ((deg & old) & G2 & G). apply bind_some in G as (e2s & G3 & G). apply bind_some in G as (sd & G4 & G).
  apply bind_some in G as ((sub & sold) & G5 & G). apply bind_some in G as (e2d & G6 & G). injection G as <-.
  apply fm_degree in G1; [|exact M1]. apply fm_filtering in G2 as (F1 & F2); auto. apply fm_e2s in G3; auto.
  apply fm_subtour in G4; auto. apply fm_filtering in G5 as (F3 & F4); auto. apply fm_e2d_augmented in G6; auto.
  repeat split; cbn; auto.
Qed.
Lemma iterate_finite o d D m m' intr : (po_filt o = true -> fin1 (po_alpha o)) -> fin_data d -> fin_all m ->
  py_iterate_augmented o d D m = Some (m', intr) -> fin_all m'.
Proof.
  intros A Hd (M1 & M2 & M3 & M4) G. unfold py_iterate_augmented in G. apply bind_some in G as (e2d & G1 & G).
  apply bind_some in G as (m1 & G2 & G). apply bind_some in G as (deg & _ & G). apply bind_some in G as (ext & _ & G).
  apply bind_some in G as (y & _ & G). injection G as <- <-.
  assert (E : fm e2d).
  { destruct (po_reset o); [|injection G1 as <-; exact M1]. unfold py_reset in G1.
    eapply (fm_put2 (pd_edges d) _ (fun _ u v => get2 (pd_cm d) u v)); [|exact M1|exact G1].
    intros _ u v x. apply fin_get2, Hd. }
  revert G2. apply P_for; [intros; eapply augmented_finite; eauto|]. repeat split; cbn; auto.
Qed.
Lemma analysis_msgs d m intr dec ds t f s st : py_analysis d m intr dec ds t f s = Some st -> pt_msgs_of st = m.
Proof.
  unfold py_analysis. destruct dec as ((hd & sel) & cost). intros G. apply bind_some in G as (loops & _ & G).
  destruct loops as [|l rest]; [injection G as <-; reflexivity|].
  destruct (_ && _); apply bind_some in G as (? & _ & G); injection G as <-; reflexivity.
Qed.
Lemma fin_set_sub st sub : fin_all (pt_msgs_of st) -> fm sub -> fin_all (pt_msgs_of (set_sub st sub)).
Proof. intros (M1 & M2 & M3 & M4) H. repeat split; auto. Qed.
Lemma round_finite o d st st' : (po_filt o = true -> fin1 (po_alpha o)) -> fin_data d -> fin_all (pt_msgs_of st) ->
  py_round o d st = Some (Some st') -> fin_all (pt_msgs_of st').
Proof.
  intros A Hd M G. unfold py_round in G. apply bind_some in G as ((m & intr) & G1 & G). apply bind_some in G as (dec & _ & G).
  destruct (_ && _); [discriminate|]. apply bind_some in G as (st1 & G2 & G). cbn zeta in G. apply analysis_msgs in G2.
  apply iterate_finite in G1; auto. rewrite <- G2 in G1. injection G as <-. destruct (_ =? _); [exact G1|].
  apply fin_set_sub; [exact G1|]. apply Forall_app. split; [exact (proj1 (proj2 (proj2 G1)))|apply fm_zeros].
Qed.
Lemma rounds_finite o d : (po_filt o = true -> fin1 (po_alpha o)) -> fin_data d -> forall j st q, fin_all (pt_msgs_of st) ->
  py_rounds j o d st = Some (PyRunning q) -> fin_all (pt_msgs_of q).
Proof.
  intros A Hd. induction j as [|j IH]; intros st q M G; cbn [py_rounds] in G; destruct (_ && _ && _); try discriminate.
  - injection G as <-. exact M.
  - apply bind_some in G as ([st'|] & R & G); [|discriminate]. eapply IH; [|exact G]. eapply round_finite; eauto.
Qed.
Lemma initialize_finite n cm d : fm cm -> py_tsp_initialize n cm = Some d -> fin_data d.
Proof.
  intros H G. unfold py_tsp_initialize in G. cbn zeta in G. apply bind_some in G as ((cost & m) & G1 & G). injection G as <-.
  assert (X : fv (fst (cost, m)) /\ fm (snd (cost, m))).
  { revert G1. unfold py_tsp_arrays. cbn zeta. apply (P_for (fun x => fv (fst x) /\ fm (snd x))).
    - intros (c & x) i (c' & x') (S1 & S2) G. cbn [fst snd] in *. apply bind_some in G as ((u & v) & _ & G).
      apply bind_some in G as (y & G1 & G). apply bind_some in G as (c1 & G2 & G). apply bind_some in G as (x1 & G3 & G).
      apply bind_some in G as (x2 & G4 & G). injection G as <- <-. apply fin_get2 in G1; [|exact H].
      split; [eapply P_set; [exact S1|exact G1|exact G2]|]. eapply fin_set2; [|exact G1|exact G4]. eapply fin_set2; [exact S2|exact G1|exact G3].
    - split; [apply fv_repeat|apply (fm_zeros (py_num_edges n) n)]. }
  destruct X. repeat split; cbn; auto.
Qed.
Lemma all_finite_fm m : all_finite m <-> fm m.
Proof.
  unfold all_finite, fm, fv, fin1. split; intros H.
  - apply Forall_forall. intros r Ir. apply Forall_forall. intros x. apply H, Ir.
  - intros r x Ir Ix. rewrite Forall_forall in H. specialize (H r Ir). rewrite Forall_forall in H. exact (H x Ix).
Qed.

(** With finite costs, whatever the shape of the matrix and the settings, all messages a run is left
    with are finite, and the program never ends itself. *)
Theorem C102_finite : forall k o n cm, all_finite cm -> (po_filt o = true -> exists a, po_alpha o = Fin a) ->
  py_tsp_reference k o n cm <> Some PyExit /\
  (forall q, py_tsp_reference k o n cm = Some (PyRunning q) ->
     all_finite (pm_e2d (pt_msgs_of q)) /\ all_finite (pm_sub (pt_msgs_of q))).
Proof.
  intros k o n cm H A. apply all_finite_fm in H.
  assert (R : forall j q, py_tsp_reference j o n cm = Some (PyRunning q) -> fin_all (pt_msgs_of q)).
  { intros j q G. unfold py_tsp_reference in G. apply bind_some in G as (d & G1 & G). apply initialize_finite in G1; [|exact H].
    apply bind_some in G as ((m & intr) & G2 & G). apply bind_some in G as (dec & _ & G). apply bind_some in G as (st & G4 & G).
    cbn zeta in G. eapply rounds_finite; [exact A|exact G1| |exact G]. apply analysis_msgs in G4.
    assert (M : fin_all m).
    { unfold py_iterate_relaxed in G2. apply bind_some in G2 as (m1 & G2 & G3). apply bind_some in G3 as (? & _ & G3).
      apply bind_some in G3 as (? & _ & G3). injection G3 as <- <-.
      revert G2. apply P_for; [intros; eapply relaxed_finite; eauto|]. repeat split; cbn.
      - apply G1. - intros ? X; discriminate. - constructor. - intros ? X; discriminate. }
    rewrite <- G4 in M. destruct (_ && _); [|exact M]. apply fin_set_sub; [exact M|apply fm_zeros]. }
  split.
  - intros G. apply C102_exit in G as (j & q & d & m & intr & hd & sel & cost & _ & Q & E1 & E2 & _ & _ & _ & r & Ir & N).
    apply R in Q. apply initialize_finite in E1; [|exact H]. apply iterate_finite in E2; auto.
    destruct (proj2 (all_finite_fm _) (proj1 E2) r NaN Ir N) as (x & X). discriminate.
  - intros q Q. apply R in Q as (Q1 & _ & Q3 & _). split; apply all_finite_fm; assumption.
Qed.

(** Two pairs of cities with no way from the first to the second (infinite costs): messages that are
    not numbers appear in the first round, which changes the selection; the second round keeps the
    selection and ends the program.  Finite costs instead: the run goes on. *)
Definition fz (z : Z) : num := Fin (zq z).
Definition one_way (c : num) : list (list num) :=
  [[fz 0; fz 1; c; c]; [fz 1; fz 0; c; c]; [fz 8; fz 6; fz 0; fz 1]; [fz 5; fz 4; fz 1; fz 0]].
Definition plain (iters : nat) : pt_options :=
  {| po_iters := iters; po_aug := true; po_reset := true; po_filt := false; po_alpha := n0; po_thr := fz 0 |}.
Definition running (r : option pt_outcome) : option (list (nat * nat) * bool) :=
  match r with Some (PyRunning q) => Some (pt_selected q, existsb (existsb is_nan) (pm_e2d (pt_msgs_of q))) | _ => None end.
Example C102_example :
  running (py_tsp_reference 0 (plain 1) 4 (one_way PInf)) = Some ([(0, 1); (1, 0); (2, 3); (3, 2)], false) /\
  running (py_tsp_reference 1 (plain 1) 4 (one_way PInf)) = Some ([(0, 1); (1, 0); (2, 3); (3, 1); (3, 2)], true) /\
  py_tsp_reference 2 (plain 1) 4 (one_way PInf) = Some PyExit.
Proof. split; [|split]; vm_compute; reflexivity. Qed.
Example C102_finite_example :
  all_finite (one_way (fz 9)) /\ (exists x, running (py_tsp_reference 2 (plain 1) 4 (one_way (fz 9))) = Some (x, false) /\ x <> []).
Proof.
  split.
  - unfold all_finite, one_way. intros r x Ir Ix. cbn in Ir.
    repeat (destruct Ir as [<-|Ir]; [cbn in Ix; repeat (destruct Ix as [<-|Ix]; [eexists; reflexivity|]); destruct Ix|]). destruct Ir.
  - eexists. split; [vm_compute; reflexivity|discriminate].
Qed.

Print Assumptions C102_exit.
Print Assumptions C102_finite.
