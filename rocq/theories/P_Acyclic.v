(** * Forests are the formulas without cycles *)
From Verif Require Import Num NumFacts Arr ArrFacts Spec SpecForest SpecAcyclic.
From Coq Require Import Permutation.
Local Open Scope nat_scope.

Section Cycle.
Context (cx : nat -> list nat).

(** ** A forest has no cycle *)
Lemma forest_no_cycle idx : forest cx idx -> forall l, ~ cycle cx idx l.
Proof.
  induction 1 as [|i v idx Hv Hs F IH]; intros l (L2 & N1 & N2 & Hin & Hl).
  - destruct l as [|[c u] l]; [cbn in L2; lia|]. exact (Hin c (or_introl eq_refl)).
  - destruct (in_dec Nat.eq_dec i (map fst l)) as [I|I].
    2: { apply (IH l). split; [exact L2|]. repeat split; auto; try apply Hl; auto. intros c Hc. destruct (Hin c Hc) as [->|]; tauto. }
    apply (In_nth _ _ 0) in I. destruct I as (j & Hj & Ej). rewrite map_length in Hj.
    set (n := length l) in *.
    assert (Hp : exists p, p < n /\ p <> j /\ Nat.modulo (p + 1) n = j).
    { destruct j as [|j].
      - exists (n - 1). split; [lia|]. split; [lia|]. replace (n - 1 + 1) with n by lia. apply Nat.mod_same. lia.
      - exists j. split; [lia|]. split; [lia|]. rewrite Nat.mod_small by lia. lia. }
    destruct Hp as (p & Hp & Npj & Ep).
    assert (Hn : Nat.modulo (j + 1) n < n) by (apply Nat.mod_upper_bound; lia).
    assert (Nn : Nat.modulo (j + 1) n <> j).
    { destruct (Nat.eq_dec (j + 1) n) as [En|]; [rewrite En, Nat.mod_same by lia; lia|rewrite Nat.mod_small by lia; lia]. }
    assert (other : forall k, k < n -> k <> j -> In (nth k (map fst l) 0) idx).
    { intros k Hk Nk. destruct (Hin (nth k (map fst l) 0)) as [E|E]; auto.
      - apply nth_In. now rewrite map_length.
      - exfalso. apply Nk. rewrite <- Ej in E. symmetry.
        apply (proj1 (NoDup_nth (map fst l) 0) N1); auto; now rewrite map_length. }
    destruct (Hl j Hj) as (A1 & A2). destruct (Hl p Hp) as (B1 & B2). rewrite Ep in B2. rewrite Ej in A1, B2.
    assert (E1 : nth j (map snd l) 0 = v).
    { destruct (Nat.eq_dec (nth j (map snd l) 0) v); auto. exfalso. apply (Hs _ _ A1 n0 (other _ Hn Nn)). exact A2. }
    assert (E2 : nth p (map snd l) 0 = v).
    { destruct (Nat.eq_dec (nth p (map snd l) 0) v); auto. exfalso. apply (Hs _ _ B2 n0 (other _ Hp Npj)). exact B1. }
    apply Npj. apply (proj1 (NoDup_nth (map snd l) 0) N2); rewrite ?map_length; auto. now rewrite E1, E2.
Qed.

(** ** Without a leaf there is a cycle *)
Fixpoint path (l : list (nat * nat)) : Prop :=
  match l with
  | [] => True
  | (c, v) :: r => In v (cx c) /\ match r with [] => True | (c', _) :: _ => In v (cx c') end /\ path r
  end.
Lemma path_nth l j : path l -> j < length l -> In (nth j (map snd l) 0) (cx (nth j (map fst l) 0)).
Proof.
  revert j. induction l as [|[c v] r IH]; intros j Hp Hj; [cbn in Hj; lia|]. destruct Hp as (A & _ & Hr).
  destruct j as [|j]; cbn; auto. apply IH; cbn in Hj; auto; lia.
Qed.
Lemma path_next l j : path l -> S j < length l -> In (nth j (map snd l) 0) (cx (nth (S j) (map fst l) 0)).
Proof.
  revert j. induction l as [|[c v] r IH]; intros j Hp Hj; [cbn in Hj; lia|]. destruct Hp as (_ & B & Hr). cbn [length] in Hj.
  destruct j as [|j].
  - destruct r as [|[c' v'] r]; [cbn in Hj; lia|]. exact B.
  - change (In (nth j (map snd r) 0) (cx (nth (S j) (map fst r) 0))). apply IH; auto. lia.
Qed.
Lemma path_firstn l m : path l -> path (firstn m l).
Proof.
  revert m. induction l as [|[c v] r IH]; intros [|m]; cbn; auto. intros (A & B & C). split; auto.
  destruct r as [|[c' v'] r]; [destruct m; cbn; auto|]. destruct m; [cbn; auto|]. split; [exact B|]. apply (IH (S m)), C.
Qed.
Lemma in_firstn {A} (l : list A) m x : In x (firstn m l) -> In x l.
Proof. intro H. rewrite <- (firstn_skipn m l). apply in_or_app. auto. Qed.
Lemma NoDup_firstn {A} (l : list A) m : NoDup l -> NoDup (firstn m l).
Proof.
  revert m. induction l as [|x l IH]; intros [|m] H; try constructor; inversion_clear H; auto.
  intro K. apply in_firstn in K. contradiction.
Qed.

Lemma close_path S l u : path l -> 2 <= length l -> NoDup (map fst l) -> NoDup (map snd l) -> (forall c, In c (map fst l) -> In c S) ->
  u = nth (length l - 1) (map snd l) 0 -> In u (cx (nth 0 (map fst l) 0)) -> cycle cx S l.
Proof.
  intros Hp L2 N1 N2 Hin Eu Hu. repeat split; auto. { apply path_nth; auto. }
  destruct (Nat.eq_dec (j + 1) (length l)) as [E|E].
  - rewrite E, Nat.mod_same by lia. replace j with (length l - 1) by lia. now rewrite <- Eu.
  - rewrite Nat.mod_small by lia. rewrite Nat.add_1_r. apply path_next; auto. lia.
Qed.

Context (S0 : list nat).
Context (two : forall i, In i S0 -> exists u v, u <> v /\ In u (cx i) /\ In v (cx i) /\
  (exists c, In c S0 /\ c <> i /\ In u (cx c)) /\ (exists c, In c S0 /\ c <> i /\ In v (cx c))).

Lemma grow c0 v0 r : path ((c0, v0) :: r) -> NoDup (c0 :: map fst r) -> NoDup (v0 :: map snd r) ->
  (forall c, In c (c0 :: map fst r) -> In c S0) ->
  (exists l, cycle cx S0 l) \/
  exists c' u, path ((c', u) :: (c0, v0) :: r) /\ NoDup (c' :: c0 :: map fst r) /\ NoDup (u :: v0 :: map snd r) /\ In c' S0.
Proof.
  intros Hp N1 N2 Hin.
  assert (X : exists u c', u <> v0 /\ In u (cx c0) /\ In c' S0 /\ c' <> c0 /\ In u (cx c')).
  { destruct (two c0 (Hin c0 (or_introl eq_refl))) as (u & v & Nuv & Hu & Hv & (c1 & A1 & A2 & A3) & (c2 & B1 & B2 & B3)).
    destruct (Nat.eq_dec u v0); [exists v, c2|exists u, c1]; repeat split; auto; congruence. }
  destruct X as (u & c' & Nu & Hu & Hc' & Nc & Huc).
  destruct (in_dec Nat.eq_dec u (map snd r)) as [I|I].
  { left. apply (In_nth _ _ 0) in I. destruct I as (j & Hj & Ej). rewrite map_length in Hj.
    exists (firstn (S (S j)) ((c0, v0) :: r)).
    assert (Ln : length (firstn (S (S j)) ((c0, v0) :: r)) = S (S j)) by (rewrite firstn_length; cbn [length]; lia).
    apply close_path with (u := u).
    - now apply path_firstn.
    - rewrite Ln. lia.
    - rewrite <- firstn_map. now apply NoDup_firstn.
    - rewrite <- firstn_map. now apply NoDup_firstn.
    - rewrite <- firstn_map. intros c Hc. apply in_firstn in Hc. now apply Hin.
    - rewrite Ln, <- firstn_map. cbn [Nat.sub]. rewrite <- Ej.
      change (nth j (map snd r) 0 = nth j (firstn (S j) (map snd r)) 0).
      rewrite <- (firstn_skipn (S j) (map snd r)) at 1. rewrite app_nth1; auto. rewrite firstn_length, map_length. lia.
    - rewrite <- firstn_map. exact Hu. }
  destruct (in_dec Nat.eq_dec c' (map fst r)) as [J|J].
  { left. apply (In_nth _ _ 0) in J. destruct J as (j & Hj & Ej). rewrite map_length in Hj.
    set (l := firstn (S j) ((c0, v0) :: r)).
    assert (Ll : length l = S j) by (unfold l; rewrite firstn_length; cbn [length]; lia).
    assert (P1 : path (l ++ [(c', u)])).
    { assert (E : nth j (map fst r) 0 = c') by exact Ej. unfold l. clear - Hp E Hj Huc.
      revert c0 v0 r Hp E Hj. induction j as [|j IH]; intros c0 v0 r Hp E Hj.
      - destruct r as [|[c1 v1] r]; [cbn in Hj; lia|]. cbn in E |- *. subst c1. cbn in Hp. tauto.
      - destruct r as [|[c1 v1] r]; [cbn in Hj; lia|]. specialize (IH c1 v1 r). cbn [length map nth fst] in *.
        destruct Hp as (A & B & C). specialize (IH C E ltac:(lia)).
        change (In v0 (cx c0) /\ In v0 (cx c1) /\ path (firstn (S j) ((c1, v1) :: r) ++ [(c', u)])). auto. }
    assert (F1 : map fst l = firstn (S j) (c0 :: map fst r)) by (unfold l; now rewrite <- firstn_map).
    assert (F2 : map snd l = firstn (S j) (v0 :: map snd r)) by (unfold l; now rewrite <- firstn_map).
    exists (l ++ [(c', u)]). apply close_path with (u := u); auto.
    - rewrite app_length, Ll. cbn. lia.
    - rewrite map_app. cbn [map fst]. rewrite F1.
      assert (E : firstn (S (S j)) (c0 :: map fst r) = firstn (S j) (c0 :: map fst r) ++ [c']).
      { rewrite <- Ej. change (nth j (map fst r) 0) with (nth (S j) (c0 :: map fst r) 0). symmetry.
        assert (H : S j < length (c0 :: map fst r)) by (cbn [length]; rewrite map_length; lia).
        clear - H. revert H. generalize (c0 :: map fst r). generalize (S j). clear. intros n l. revert n.
        induction l as [|x l IH]; intros [|n] H; cbn in H; try lia; [reflexivity|].
        cbn [firstn app nth]. f_equal. apply IH. lia. }
      rewrite <- E. now apply NoDup_firstn.
    - rewrite map_app. cbn [map snd]. rewrite F2. apply NoDup_Add with (a := u) (l := firstn (S j) (v0 :: map snd r)).
      + rewrite <- (app_nil_r (firstn (S j) (v0 :: map snd r))) at 1. apply Add_app.
      + split; [now apply NoDup_firstn|]. intros K. apply in_firstn in K. destruct K as [K|K]; congruence || tauto.
    - rewrite map_app, F1. intros c Hc. apply in_app_or in Hc. destruct Hc as [Hc|[<-|[]]]; auto. apply in_firstn in Hc. now apply Hin.
    - rewrite app_length, Ll. cbn [length]. replace (S j + 1 - 1) with (S j) by lia. rewrite map_app, app_nth2; rewrite map_length, Ll; auto.
      now rewrite Nat.sub_diag. }
  right. exists c', u. split; [cbn in Hp |- *; tauto|]. split.
  - constructor; auto. intros [K|K]; congruence || tauto.
  - split; auto. constructor; auto. intros [K|K]; congruence || tauto.
Qed.

Lemma no_leaf_cycle : S0 <> [] -> exists l, cycle cx S0 l.
Proof.
  intros Ne.
  assert (X : forall n, (exists l, cycle cx S0 l) \/
    exists c0 v0 r, length r = n /\ path ((c0, v0) :: r) /\ NoDup (c0 :: map fst r) /\ NoDup (v0 :: map snd r) /\ forall c, In c (c0 :: map fst r) -> In c S0).
  { induction n as [|n [C|(c0 & v0 & r & L & Hp & N1 & N2 & Hin)]]; auto.
    - right. destruct S0 as [|i s]; [congruence|]. destruct (two i (or_introl eq_refl)) as (u & _ & _ & Hu & _).
      exists i, u, []. cbn. repeat split; auto; try (constructor; [tauto|constructor]). intros c [<-|[]]. auto.
    - destruct (grow c0 v0 r Hp N1 N2 Hin) as [C|(c' & u & Hp' & N1' & N2' & Hc)]; auto.
      right. exists c', u, ((c0, v0) :: r). cbn [length map fst snd]. rewrite L. repeat split; auto; try apply Hp'.
      intros c [<-|K]; auto. }
  destruct (X (length S0)) as [C|(c0 & v0 & r & L & _ & N1 & _ & Hin)]; auto.
  exfalso. pose proof (NoDup_incl_length N1 Hin) as H. cbn [length] in H. rewrite map_length in H. lia.
Qed.
End Cycle.

Section Leaf.
Context (cx : nat -> list nat).
Definition shared (S : list nat) (i u : nat) : bool := existsb (fun c => negb (c =? i) && existsb (Nat.eqb u) (cx c)) S.
Lemma shared_spec S i u : shared S i u = true <-> exists c, In c S /\ c <> i /\ In u (cx c).
Proof.
  unfold shared. rewrite existsb_exists. split; intros (c & A & B).
  - apply andb_true_iff in B. destruct B as (B & C). apply negb_true_iff, Nat.eqb_neq in B. apply existsb_exists in C.
    destruct C as (x & D & E). apply Nat.eqb_eq in E. subst. eauto.
  - destruct B as (B & C). exists c. split; auto. apply andb_true_iff. split; [now apply negb_true_iff, Nat.eqb_neq|].
    apply existsb_exists. exists u. split; auto. apply Nat.eqb_refl.
Qed.
Definition leaf (S : list nat) (i : nat) : Prop := exists v, In v (cx i) /\ forall u c, In u (cx i) -> u <> v -> In c S -> c <> i -> ~ In u (cx c).
Definition doubly (S : list nat) (i : nat) : Prop := exists u v, u <> v /\ In u (cx i) /\ In v (cx i) /\
  (exists c, In c S /\ c <> i /\ In u (cx c)) /\ (exists c, In c S /\ c <> i /\ In v (cx c)).
Lemma leaf_or S i : cx i <> [] -> leaf S i \/ doubly S i.
Proof.
  intro Ne. destruct (nodup Nat.eq_dec (filter (shared S i) (cx i))) as [|u [|v r]] eqn:E.
  - left. destruct (cx i) as [|w t] eqn:Ec; [congruence|]. exists w. split; [rewrite Ec; now left|]. intros u c Hu _ Hc Nc K. rewrite <- Ec in E.
    assert (In u (nodup Nat.eq_dec (filter (shared S i) (cx i)))) as X; [|rewrite E in X; exact X].
    apply nodup_In, filter_In. split; auto. apply shared_spec. eauto.
  - left. assert (In u (filter (shared S i) (cx i))) as X by (apply (nodup_In Nat.eq_dec); rewrite E; now left).
    apply filter_In in X. exists u. split; [tauto|]. intros w c Hw Nw Hc Nc K. apply Nw.
    assert (In w (nodup Nat.eq_dec (filter (shared S i) (cx i)))) as Y.
    { apply nodup_In, filter_In. split; auto. apply shared_spec. eauto. }
    rewrite E in Y. destruct Y as [Y|[]]. auto.
  - right. pose proof (NoDup_nodup Nat.eq_dec (filter (shared S i) (cx i))) as N. rewrite E in N.
    assert (In u (filter (shared S i) (cx i))) as X by (apply (nodup_In Nat.eq_dec); rewrite E; now left).
    assert (In v (filter (shared S i) (cx i))) as Y by (apply (nodup_In Nat.eq_dec); rewrite E; right; now left).
    apply filter_In in X, Y. rewrite shared_spec in X, Y. exists u, v. inversion_clear N. repeat split; try tauto. intros ->. apply H. now left.
Qed.
Lemma leaf_exists S : S <> [] -> NoDup S -> (forall i, In i S -> cx i <> []) -> (forall l, ~ cycle cx S l) -> exists i, In i S /\ leaf S i.
Proof.
  intros Ne Nd Hne Hc.
  assert (X : (exists i, In i S /\ leaf S i) \/ forall i, In i S -> doubly S i).
  { clear Ne Nd Hc. assert (G : forall l, incl l S -> (exists i, In i l /\ leaf S i) \/ forall i, In i l -> doubly S i).
    { induction l as [|i l IH]; intros I; [right; intros i []|]. destruct (IH (fun x H => I x (or_intror H))) as [(k & A & B)|G].
      - left. exists k. split; auto. now right.
      - destruct (leaf_or S i (Hne i (I i (or_introl eq_refl)))) as [L|D]; [left; exists i; split; auto; now left|].
        right. intros k [<-|Hk]; auto. }
    apply G, incl_refl. }
  destruct X as [X|X]; auto. exfalso. destruct (no_leaf_cycle cx S X Ne) as (l & C). exact (Hc l C).
Qed.

Lemma cycle_mono S S' l : incl S S' -> cycle cx S l -> cycle cx S' l.
Proof. intros I (A & B & C & D & E). split; [exact A|]. repeat split; auto; apply E; auto. Qed.

Lemma no_cycle_forest n : forall S, length S = n -> NoDup S -> (forall i, In i S -> cx i <> []) -> (forall l, ~ cycle cx S l) ->
  exists order, Permutation order S /\ forest cx order.
Proof.
  induction n as [|n IH]; intros S L Nd Hne Hc.
  - destruct S; [|discriminate]. exists []. split; constructor.
  - destruct (leaf_exists S) as (i & Hi & v & Hv & Hleaf); auto. { intros ->. discriminate. }
    destruct (in_split _ _ Hi) as (s1 & s2 & ->). pose proof (NoDup_remove_1 _ _ _ Nd) as Nd'. pose proof (NoDup_remove_2 _ _ _ Nd) as Ni.
    assert (I : incl (s1 ++ s2) (s1 ++ i :: s2)).
    { intros x Hx. apply in_app_or in Hx. apply in_or_app. destruct Hx; auto. right. now right. }
    destruct (IH (s1 ++ s2)) as (order & P & F); auto.
    + rewrite app_length in *. cbn [length] in L. lia.
    + intros l C. apply (Hc l). now apply cycle_mono with (s1 ++ s2).
    + exists (i :: order). split.
      * etransitivity; [apply perm_skip, P|apply Permutation_middle].
      * apply forest_cons with v; auto. intros u c Hu Nu Hc' K. apply (Permutation_in _ P) in Hc'. apply (Hleaf u c); auto.
        intros ->. contradiction.
Qed.
End Leaf.

Lemma tree_like_acyclic conx : Forall (fun c => c <> []) conx -> tree_like conx <-> acyclic conx.
Proof.
  intro Hne. unfold acyclic. split.
  - intros (order & P & F) l C. apply (forest_no_cycle _ _ F l). apply cycle_mono with (seq 0 (length conx)); auto.
    intros x Hx. now apply (Permutation_in _ (Permutation_sym P)).
  - intro H. apply (no_cycle_forest _ (length conx)); auto using seq_length, seq_NoDup.
    intros i Hi. apply in_seq in Hi. rewrite Forall_forall in Hne. apply Hne, nth_In. lia.
Qed.
