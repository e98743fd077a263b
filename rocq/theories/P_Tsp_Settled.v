(** * Settled messages of a TSP stage: covers. *)
From Coq Require Import Permutation.
From Verif Require Import Num NumFacts Spec SpecGraph SpecCover SpecSettled MinSum MinSumFacts P_Settled P_Assign P_Tsp_Assign.
Local Open Scope nat_scope.

Lemma ones_some {A} (y : A -> bool) l : at_least_one (map y l) <-> exists i, In i l /\ y i = true.
Proof.
  unfold at_least_one, ones. split.
  - intro H. assert (I : In true (map y l)) by (apply (count_occ_In Bool.bool_dec); lia).
    apply in_map_iff in I as (i & Q & I). eauto.
  - intros (i & I & Q). apply (count_occ_In Bool.bool_dec). rewrite <- Q. now apply in_map.
Qed.
Lemma ones_map {A} (y : A -> bool) l : ones (map y l) = length (filter y l).
Proof.
  unfold ones. induction l as [|a l IH]; [reflexivity|]. cbn [map filter count_occ].
  destruct (y a); destruct (Bool.bool_dec _ true) as [Q|Q]; try congruence; cbn [length]; now rewrite IH.
Qed.
Lemma one_exists {A} (y : A -> bool) l : exactly_one (map y l) -> exists i, In i l /\ y i = true.
Proof. unfold exactly_one. intro H. apply ones_some. unfold at_least_one. lia. Qed.
Lemma one_unique {A} (y : A -> bool) l i j : NoDup l -> exactly_one (map y l) -> In i l -> In j l -> y i = true -> y j = true -> i = j.
Proof.
  unfold exactly_one. rewrite ones_map. intros _ H Ii Ij Yi Yj.
  assert (Fi : In i (filter y l)) by now apply filter_In. assert (Fj : In j (filter y l)) by now apply filter_In.
  destruct (filter y l) as [|a [|b r]]; try discriminate. destruct Fi as [<-|[]], Fj as [<-|[]]. reflexivity.
Qed.
Lemma one_intro {A} (y : A -> bool) l i : NoDup l -> In i l -> (forall j, In j l -> (y j = true <-> i = j)) -> exactly_one (map y l).
Proof. intros N I H. unfold exactly_one. rewrite ones_map. rewrite (filter_one i y l); auto. Qed.
Lemma hd_only (p : nat -> bool) l i : In i l -> p i = true -> (forall j, In j l -> p j = true -> i = j) -> hd 0 (filter p l) = i.
Proof.
  intros I P H. assert (F : In i (filter p l)) by now apply filter_In. destruct (filter p l) as [|a r] eqn:Q; [destruct F|].
  cbn. symmetry. assert (J : In a (filter p l)) by (rewrite Q; now left). apply filter_In in J as (J & K). now apply H.
Qed.

Lemma filter_shorter {A} (p : A -> bool) l : length (filter p l) <= length l.
Proof. induction l as [|a l IH]; [auto|]. cbn. destruct (p a); cbn; lia. Qed.

Inductive node := Leave (u : nat) | Enter (u : nat) | Sub (k : nat).
Lemma node_eq : forall a b : node, {a = b} + {a <> b}.
Proof. decide equality; apply Nat.eq_dec. Qed.

Section Stage.
Variables (n : nat) (E : list (nat * nat)) (C : list (list Qc)) (D : list (list nat)).
Hypothesis (Hn : 2 <= n) (Co : complete n E).
Hypothesis HD : forall d, In d D -> d <> [] /\ NoDup d /\ forall i, In i d -> i < length E.
Definition nodes : list node := map Leave (seq 0 n) ++ map Enter (seq 0 n) ++ map Sub (seq 0 (length D)).
Definition scope (c : node) : list nat :=
  match c with Leave u => from_node E u | Enter u => into_node E u | Sub k => nth k D [] end.
Definition allow (c : node) : list bool -> Prop := match c with Sub _ => at_least_one | _ => exactly_one end.
Let idx := seq 0 (length E).

Lemma in_nodes c : In c nodes <-> match c with Leave u | Enter u => u < n | Sub k => k < length D end.
Proof.
  unfold nodes. rewrite !in_app_iff, !in_map_iff. split.
  - intros [(u & <- & I)|[(u & <- & I)|(u & <- & I)]]; apply in_seq in I; lia.
  - intro H. destruct c as [u|u|u]; [left|right; left|right; right]; exists u; (split; [reflexivity|apply in_seq; lia]).
Qed.
Lemma nodes_nodup : NoDup nodes.
Proof.
  unfold nodes. assert (I : forall (f : nat -> node) l, (forall a b, f a = f b -> a = b) -> NoDup l -> NoDup (map f l)).
  { intros f l Hf. induction l as [|a l IH]; cbn; intro N; [constructor|]. inversion N; subst. constructor; auto.
    intro J. apply in_map_iff in J as (x & Q & J). apply Hf in Q. now subst. }
  assert (K : forall (l m : list node), NoDup l -> NoDup m -> (forall a, In a l -> ~ In a m) -> NoDup (l ++ m)).
  { intros l m Nl Nm H. induction l as [|a l IH]; cbn; auto. inversion Nl; subst. constructor.
    - rewrite in_app_iff. intros [J|J]; [auto|]. apply (H a); [now left|auto].
    - apply IH; auto. intros; apply H; now right. }
  repeat apply K; repeat apply I; try apply seq_NoDup; try congruence.
  all: intros a; rewrite ?in_app_iff, !in_map_iff; intros (x & <- & _); intros [(z & Q & _)|(z & Q & _)] || intros (z & Q & _); discriminate.
Qed.
Lemma edge_ends i u v : nth_error E i = Some (u, v) -> u < n /\ v < n /\ u <> v /\ i < length E.
Proof.
  intro G. assert (H : u < n /\ v < n /\ u <> v) by (apply (proj2 Co); exact (nth_error_In _ _ G)).
  assert (i < length E) by (apply nth_error_Some; congruence). tauto.
Qed.
Lemma edge_get i : i < length E -> exists u v, nth_error E i = Some (u, v).
Proof. intro H. destruct (nth_error E i) as [(u, v)|] eqn:G; [eauto|]. apply nth_error_None in G. lia. Qed.
Lemma scope_ok c : In c nodes -> NoDup (scope c) /\ incl (scope c) idx /\ scope c <> [].
Proof.
  rewrite in_nodes. intro H. destruct c as [u|u|k]; cbn [scope].
  - split; [apply from_nodup|]. split; [intros i I; now apply filter_In in I|].
    destruct (Nat.eq_dec u 0) as [->|Nu].
    + intro Z. assert (I : In (pos_of E 0 1) (from_node E 0)) by (apply in_from; exists 1; apply pos_of_ok, (proj2 Co); lia).
      rewrite Z in I. destruct I.
    + intro Z. assert (I : In (pos_of E u 0) (from_node E u)) by (apply in_from; exists 0; apply pos_of_ok, (proj2 Co); lia).
      rewrite Z in I. destruct I.
  - split; [apply into_nodup|]. split; [intros i I; now apply filter_In in I|].
    destruct (Nat.eq_dec u 0) as [->|Nu].
    + intro Z. assert (I : In (pos_of E 1 0) (into_node E 0)) by (apply in_into; exists 1; apply pos_of_ok, (proj2 Co); lia).
      rewrite Z in I. destruct I.
    + intro Z. assert (I : In (pos_of E 0 u) (into_node E u)) by (apply in_into; exists 0; apply pos_of_ok, (proj2 Co); lia).
      rewrite Z in I. destruct I.
  - destruct (HD (nth k D [])) as (A & B & K); [now apply nth_In|]. repeat split; auto. intros i I. apply in_seq. specialize (K i I). lia.
Qed.
Lemma scope_at i u v c : nth_error E i = Some (u, v) -> In c nodes ->
  (In i (scope c) <-> match c with Leave w => w = u | Enter w => w = v | Sub k => In k (holding D i) end).
Proof.
  rewrite in_nodes. intros G Ic. destruct c as [w|w|k]; cbn [scope].
  - rewrite in_from, G. split; [intros (z & Q); congruence|intros ->; eauto].
  - rewrite in_into, G. split; [intros (z & Q); congruence|intros ->; eauto].
  - unfold holding. rewrite filter_In, in_seq. unfold occurs. rewrite existsb_exists. split.
    + intro I. split; [lia|]. exists i. split; [exact I|apply Nat.eqb_refl].
    + intros (_ & z & I & Q). apply Nat.eqb_eq in Q. now subst.
Qed.

(** the constraints of an edge *)
Lemma inc_nodes i u v : nth_error E i = Some (u, v) ->
  filter (inc Nat.eq_dec scope i) nodes = Leave u :: Enter v :: map Sub (holding D i).
Proof.
  intro G. destruct (edge_ends i u v G) as (Hu & Hv & _ & Hi).
  assert (F : forall (f : nat -> node) (q : nat -> bool) l, (forall a, In a l -> inc Nat.eq_dec scope i (f a) = q a) ->
    filter (inc Nat.eq_dec scope i) (map f l) = map f (filter q l)).
  { intros f q l H. induction l as [|a l IH]; [reflexivity|]. cbn [map filter]. rewrite (H a) by now left.
    destruct (q a); cbn [map]; rewrite IH; auto; intros; apply H; now right. }
  unfold nodes. rewrite !filter_app.
  rewrite (F Leave (Nat.eqb u)), (F Enter (Nat.eqb v)), (F Sub (fun k => occurs i (nth k D []))).
  - rewrite (filter_one u), (filter_one v); try apply seq_NoDup; try (apply in_seq; lia); try (intros b _; apply Nat.eqb_eq). reflexivity.
  - intros k Ik. apply in_seq in Ik. apply Bool.eq_iff_eq_true. rewrite inc_true, (scope_at i u v) by (auto; apply in_nodes; lia).
    unfold holding. rewrite filter_In, in_seq. intuition lia.
  - intros w Iw. apply in_seq in Iw. apply Bool.eq_iff_eq_true. rewrite inc_true, (scope_at i u v) by (auto; apply in_nodes; lia). rewrite Nat.eqb_eq. intuition congruence.
  - intros w Iw. apply in_seq in Iw. apply Bool.eq_iff_eq_true. rewrite inc_true, (scope_at i u v) by (auto; apply in_nodes; lia). rewrite Nat.eqb_eq. intuition congruence.
Qed.

(** ** Covers as assignments *)
Lemma covered_at s i u v : nth_error E i = Some (u, v) -> covered E s i = (v =? nth u s 0).
Proof. intro G. unfold covered. now rewrite (nth_error_nth _ _ _ G). Qed.
Lemma cover_allowed s c : cover n s -> (forall k, c = Sub k -> exists i, In i (nth k D []) /\ covered E s i = true) -> In c nodes ->
  allow c (map (covered E s) (scope c)).
Proof.
  intros Hs Hc Ic. destruct (scope_ok c Ic) as (N & _ & _). apply in_nodes in Ic. destruct c as [u|u|k]; cbn [allow scope] in *.
  - assert (Hv : nth u s 0 < n /\ nth u s 0 <> u) by (split; [eapply (sg_lt n s)|eapply (sg_neq n s)]; eauto).
    assert (G : nth_error E (pos_of E u (nth u s 0)) = Some (u, nth u s 0)) by (apply pos_of_ok, (proj2 Co); lia).
    apply (one_intro _ _ (pos_of E u (nth u s 0))); auto; [apply in_from; eauto|].
    intros j Ij. apply in_from in Ij as (w & Gj). rewrite (covered_at s j u w Gj), Nat.eqb_eq. split.
    + intros ->. symmetry. apply pos_of_unique; [exact (proj1 Co)|assumption].
    + intros <-. rewrite G in Gj. congruence.
  - destruct (sg_onto n s Hs u Ic) as (w & Hw & Ew).
    assert (Nw : nth w s 0 <> w) by (eapply (sg_neq n s); eauto).
    assert (G : nth_error E (pos_of E w u) = Some (w, u)) by (apply pos_of_ok, (proj2 Co); lia).
    apply (one_intro _ _ (pos_of E w u)); auto; [apply in_into; eauto|].
    intros j Ij. apply in_into in Ij as (z & Gj). rewrite (covered_at s j z u Gj), Nat.eqb_eq. destruct (edge_ends j z u Gj) as (Hz & _). split.
    + intros Q. assert (z = w) by (apply (sg_inj n s Hs); auto; congruence). subst z. symmetry. apply pos_of_unique; [exact (proj1 Co)|assumption].
    + intros <-. rewrite G in Gj. congruence.
  - apply ones_some. now apply Hc.
Qed.
Lemma cover_total s (y : nat -> bool) : cover n s -> (forall i, i < length E -> y i = covered E s i) ->
  total (map (fun i => qat C (fst (nth i E (0, 0))) (snd (nth i E (0, 0)))) idx) (map y idx) = cover_cost C s.
Proof.
  intros Hs Hy. rewrite total_sum, <- sum_filter. unfold cover_cost, edges_cost.
  rewrite <- (map_map (fun i => nth i E (0, 0)) (fun e => qat C (fst e) (snd e))). apply sum_perm, Permutation_map.
  apply NoDup_Permutation.
  - assert (N : NoDup (filter y idx)) by apply NoDup_filter, seq_NoDup.
    assert (B : forall i, In i (filter y idx) -> i < length E) by (intros i I; apply filter_In in I as (I & _); apply in_seq in I; lia).
    revert N B. generalize (filter y idx). induction l as [|a l IH]; cbn; intros N B; [constructor|]. inversion N; subst. constructor; [|apply IH; auto].
    intro I. apply in_map_iff in I as (j & Q & I). assert (a = j); [|congruence].
    apply (proj1 (NoDup_nth E (0, 0)) (proj1 Co)); auto.
  - apply (NoDup_map_inv fst). rewrite cover_edges_map, map_map. cbn [fst]. rewrite map_id. apply seq_NoDup.
  - intros (u, v). rewrite in_map_iff, (in_cover_edges n) by auto. split.
    + intros (i & G & I). apply filter_In in I as (I & Y). apply in_seq in I. destruct (edge_get i) as (a & b & Gi); [lia|].
      rewrite (nth_error_nth _ _ _ Gi) in G. injection G as -> ->. rewrite Hy, (covered_at s i u v Gi) in Y by lia. apply Nat.eqb_eq in Y.
      destruct (edge_ends i u v Gi). auto.
    + intros (Hu & ->). assert (Hv : nth u s 0 < n /\ nth u s 0 <> u) by (split; [eapply (sg_lt n s)|eapply (sg_neq n s)]; eauto).
      assert (G : nth_error E (pos_of E u (nth u s 0)) = Some (u, nth u s 0)) by (apply pos_of_ok, (proj2 Co); lia).
      exists (pos_of E u (nth u s 0)). split; [now apply nth_error_nth|]. apply filter_In. destruct (edge_ends _ _ _ G) as (_ & _ & _ & Hi).
      split; [apply in_seq; lia|]. rewrite Hy, (covered_at s _ _ _ G) by auto. apply Nat.eqb_refl.
Qed.
(** an assignment that leaves and enters every node once is a cover *)
Lemma cover_of (y : nat -> bool) : (forall c, In c nodes -> allow c (map y (scope c))) ->
  exists s, cover n s /\ crosses E D s /\ forall i, i < length E -> y i = covered E s i.
Proof.
  intro H. set (go := fun u => snd (nth (hd 0 (filter y (from_node E u))) E (0, 0))).
  assert (Go : forall u, u < n -> exists i, nth_error E i = Some (u, go u) /\ y i = true /\
    forall j w, nth_error E j = Some (u, w) -> y j = true -> j = i).
  { intros u Hu. pose proof (H (Leave u)) as A. cbn [allow scope] in A. rewrite in_nodes in A. specialize (A Hu).
    destruct (one_exists _ _ A) as (i & I & Y). pose proof I as I'. apply in_from in I' as (v & G). exists i.
    assert (U : forall j, In j (from_node E u) -> y j = true -> i = j) by (intros j J Yj; apply (one_unique y (from_node E u)); auto using from_nodup).
    unfold go. rewrite (hd_only y _ i) by auto. rewrite (nth_error_nth _ _ _ G). cbn [snd]. split; [exact G|]. split; [exact Y|].
    intros j w Gj Yj. symmetry. apply U; auto. apply in_from. eauto. }
  set (s := map go (seq 0 n)).
  assert (Es : forall u, u < n -> nth u s 0 = go u).
  { intros u Hu. unfold s. rewrite (nth_indep _ 0 (go 0)) by (rewrite map_length, seq_length; auto). rewrite map_nth, seq_nth; auto. }
  assert (Ycov : forall i, i < length E -> y i = covered E s i).
  { intros i Hi. destruct (edge_get i Hi) as (u & v & G). destruct (edge_ends i u v G) as (Hu & _). rewrite (covered_at s i u v G), Es by auto.
    destruct (Go u Hu) as (j & Gj & Yj & U). apply Bool.eq_iff_eq_true. rewrite Nat.eqb_eq. split.
    - intro Yi. assert (i = j) by (eapply U; eauto). subst j. congruence.
    - intros ->. assert (i = j); [|congruence]. apply (proj1 (NoDup_nth_error E) (proj1 Co)); [auto|congruence]. }
  exists s. split; [|split; [|exact Ycov]].
  - split.
    + apply NoDup_Permutation_bis.
      * unfold s. assert (In' : forall u w, u < n -> w < n -> go u = go w -> u = w).
        { intros u w Hu Hw Q. destruct (Go u Hu) as (i & Gi & Yi & _). destruct (Go w Hw) as (j & Gj & Yj & _).
          destruct (edge_ends _ _ _ Gi) as (_ & Hv & _). pose proof (H (Enter (go u))) as A. cbn [allow scope] in A. rewrite in_nodes in A.
          assert (i = j); [|congruence]. apply (one_unique y (into_node E (go u))); auto using into_nodup; apply in_into; [eauto|rewrite Q; eauto]. }
        assert (B : forall u, In u (seq 0 n) -> u < n) by (intros u I; apply in_seq in I; lia).
        pose proof (seq_NoDup n 0) as N. revert N B. generalize (seq 0 n). induction l as [|a l IH]; cbn; intros N B; [constructor|].
        inversion N; subst. constructor; [|apply IH; auto]. intro I. apply in_map_iff in I as (b & Q & I). assert (b = a); [|congruence]. apply In'; auto.
      * unfold s. now rewrite map_length, !seq_length.
      * unfold s. intros v I. apply in_map_iff in I as (u & <- & I). apply in_seq in I. destruct (Go u) as (i & Gi & _); [lia|].
        destruct (edge_ends _ _ _ Gi) as (_ & Hv & _). apply in_seq. lia.
    + intros u Q. assert (Hu : u < n) by (assert (X : u < length s) by (apply nth_error_Some; congruence); unfold s in X; now rewrite map_length, seq_length in X).
      apply (nth_error_nth _ _ 0) in Q. rewrite Es in Q by auto. destruct (Go u Hu) as (i & Gi & _). destruct (edge_ends _ _ _ Gi) as (_ & _ & N & _). congruence.
  - intros d Id. apply In_nth_error in Id as (k & Gk). pose proof (H (Sub k)) as A. cbn [allow scope] in A. rewrite in_nodes in A.
    assert (Hk : k < length D) by (apply nth_error_Some; congruence). specialize (A Hk). rewrite (nth_error_nth _ _ _ Gk) in A.
    apply ones_some in A as (i & I & Y). exists i. split; auto. rewrite <- Ycov; auto. destruct (HD d) as (_ & _ & B); [eapply nth_error_In; eauto|auto].
Qed.

(** ** Settled messages *)
Variables (V Dg X ES SD Y : nat -> nat -> Qc) (b : nat -> Qc) (e e2 : Qc).
Hypothesis Hb : forall i u v, nth_error E i = Some (u, v) ->
  b i = (qat C u v + X i u + X i v + qsum (map (fun k => Y k i) (holding D i)))%Qc.
Hypothesis HV : forall i u v, nth_error E i = Some (u, v) -> V i u = (b i - X i u)%Qc /\ V i v = (b i - X i v)%Qc.
Hypothesis HE : forall k d i, nth_error D k = Some d -> In i d -> supports e2 (b i) (b i) (ES k i + Y k i).
Hypothesis HDg : forall u, u < n ->
  (forall pos i, nth_error (from_node E u) pos = Some i ->
     minsum_message exactly_one (map (fun i => V i u) (from_node E u)) pos (Fin (Dg i u))) /\
  (forall pos i, nth_error (into_node E u) pos = Some i ->
     minsum_message exactly_one (map (fun i => V i u) (into_node E u)) pos (Fin (Dg i u))).
Hypothesis HS : forall k d pos i, nth_error D k = Some d -> nth_error d pos = Some i ->
  minsum_message at_least_one (map (ES k) d) pos (Fin (SD k i)).
Hypothesis Hx : forall i u v, nth_error E i = Some (u, v) -> supports e (b i) (Dg i u) (X i u) /\ supports e (b i) (Dg i v) (X i v).
Hypothesis Hy : forall k d i, nth_error D k = Some d -> In i d -> supports e (b i) (ES k i + SD k i) (b i).
Hypothesis (H1 : (0 <= e)%Qc) (H2 : (0 <= e2)%Qc).
Hypothesis Hg : forall i, i < length E -> (b i < - e \/ e < b i)%Qc.

Let m (c : node) (i : nat) : Qc := match c with Leave u | Enter u => V i u | Sub k => ES k i end.
Let d (c : node) (i : nat) : Qc := match c with Leave u | Enter u => Dg i u | Sub k => SD k i end.
Let Z (c : node) (i : nat) : Qc := match c with Leave u | Enter u => X i u | Sub k => Y k i end.
Let cost (i : nat) : Qc := qat C (fst (nth i E (0, 0))) (snd (nth i E (0, 0))).

Lemma belief i : In i idx -> b i = (cost i + qsum (map (fun c => Z c i) (filter (inc Nat.eq_dec scope i) nodes)))%Qc.
Proof.
  intro I. apply in_seq in I. destruct (edge_get i) as (u & v & G); [lia|]. rewrite (inc_nodes i u v G). unfold cost. rewrite (nth_error_nth _ _ _ G).
  rewrite (Hb i u v G). unfold qsum at 2. cbn [map fold_right fst snd Z]. rewrite map_map. cbn [Z].
  change (fold_right Qcplus 0%Qc (map (fun k => Y k i) (holding D i))) with (qsum (map (fun k => Y k i) (holding D i))). ring.
Qed.
Lemma sub_get k : k < length D -> nth_error D k = Some (nth k D []).
Proof. intro H. now apply nth_error_nth'. Qed.
Lemma exact_supports q p r : q = (p - r)%Qc -> supports e2 p p (q + r).
Proof. intros ->. unfold supports. destruct (qltb p 0); qlra. Qed.
Lemma shift_supports q p r z : q = (p - r)%Qc -> supports e p z r -> supports e p (q + z) p.
Proof. intros ->. unfold supports. destruct (qltb p 0); intro; qlra. Qed.
Lemma sent c i : In c nodes -> In i (scope c) -> supports e2 (b i) (b i) (m c i + Z c i).
Proof.
  rewrite in_nodes. intros Hc I. destruct c as [u|u|k]; cbn [m Z scope] in *.
  - apply in_from in I as (v & G). apply exact_supports. exact (proj1 (HV i u v G)).
  - apply in_into in I as (v & G). apply exact_supports. exact (proj2 (HV i v u G)).
  - apply (HE k (nth k D [])); auto using sub_get.
Qed.
Lemma received c k i : In c nodes -> nth_error (scope c) k = Some i -> minsum_message (allow c) (map (m c) (scope c)) k (Fin (d c i)).
Proof.
  rewrite in_nodes. intros Hc G. destruct c as [u|u|s]; cbn [m d scope allow] in *.
  - now apply (proj1 (HDg u Hc)).
  - now apply (proj2 (HDg u Hc)).
  - apply HS; auto using sub_get.
Qed.
Lemma settled c i : In c nodes -> In i (scope c) -> supports e (b i) (m c i + d c i) (b i).
Proof.
  rewrite in_nodes. intros Hc I. destruct c as [u|u|k]; cbn [m d scope] in *.
  - apply in_from in I as (v & G). eapply shift_supports; [exact (proj1 (HV i u v G))|exact (proj1 (Hx i u v G))].
  - apply in_into in I as (v & G). eapply shift_supports; [exact (proj2 (HV i v u G))|exact (proj2 (Hx i v u G))].
  - apply (Hy k (nth k D [])); auto using sub_get.
Qed.
Lemma gap i : In i idx -> (b i < - e \/ e < b i)%Qc.
Proof. intro I. apply in_seq in I. apply Hg. lia. Qed.

Lemma settled_cover : exists s, cover n s /\ crosses E D s /\ (forall i, i < length E -> covered E s i = qltb (b i) 0) /\
  forall s' K, cover n s' ->
    (forall k d, nth_error D k = Some d -> K k = false -> (exists i, In i d /\ covered E s' i = true) /\ one_exchange E d s s') ->
    (cover_cost C s + charge E D Y K s <= cover_cost C s' + charge E D Y K s' +
       qsum (map (fun _ => qn (1 + length D) * e + qn (2 + length D) * e2)%Qc (filter (swapped E s s') idx)))%Qc.
Proof.
  pose proof (settled_factor idx nodes scope allow b m d e scope_ok received settled H1 gap) as Fac.
  destruct (cover_of (dec b)) as (s & Cs & Xs & Ys); [intros c Ic; apply Fac; auto|].
  exists s. split; [exact Cs|]. split; [exact Xs|]. split; [intros i Hi; symmetry; now apply Ys|].
  intros s' K Cs' HK. set (y := covered E s').
  assert (Df : forall i, i < length E -> dif b y i = swapped E s s' i).
  { intros i Hi. unfold dif, swapped, y. rewrite Ys by auto. apply xorb_comm. }
  set (charged := fun c => match c with Sub k => K k | _ => false end).
  assert (Ay : forall c, In c nodes -> charged c = false -> allow c (map y (scope c))).
  { intros c Ic Hc. apply cover_allowed; auto. intros k ->. apply in_nodes in Ic. apply (HK k); auto using sub_get. }
  set (sw := swapped E s s').
  set (owner := fun c => match c with
    | Leave u => hd 0 (filter y (from_node E u))
    | Enter u => hd 0 (filter (dec b) (into_node E u))
    | Sub k => hd 0 (filter sw (nth k D [])) end).
  assert (Bd : forall c i, In c nodes -> In i (scope c) -> i < length E).
  { intros c i Ic I. destruct (scope_ok c Ic) as (_ & J & _). apply J in I. apply in_seq in I. lia. }
  assert (Hown : forall i c c', In i idx -> dif b y i = true -> In c nodes -> charged c = false -> In c' nodes -> charged c' = false ->
    In i (scope c) -> In i (scope c') -> c <> c' -> owner c = i \/ owner c' = i).
  { intros i c c' Ii Di Ic Ac Ic' Ac' I I' N.
    assert (Hi : i < length E) by eauto. destruct (edge_get i Hi) as (u & v & G).
    assert (S : forall k, In (Sub k) nodes -> charged (Sub k) = false -> In i (scope (Sub k)) -> owner (Sub k) = i).
    { intros k Ik A J. apply in_nodes in Ik. cbn [charged owner scope] in *. destruct (HK k _ (sub_get k Ik) A) as (_ & One).
      assert (Si : sw i = true) by (unfold sw; rewrite <- Df; auto). apply hd_only; auto. }
    assert (W : forall (P : Prop), (owner (Leave u) = i -> P) -> (owner (Enter v) = i -> P) -> P).
    { intros P PL PE. assert (Cases : y i = true \/ dec b i = true) by (unfold dif in Di; destruct (y i), (dec b i); auto).
      destruct (edge_ends i u v G) as (Hu & Hv & _). destruct Cases as [Q|Q].
      - apply PL. cbn [owner]. assert (Il : In i (from_node E u)) by (apply in_from; eauto). apply hd_only; auto.
        intros j J Yj. apply (one_unique y (from_node E u)); auto using from_nodup. apply (Ay (Leave u)); [now apply in_nodes|reflexivity].
      - apply PE. cbn [owner]. assert (Il : In i (into_node E v)) by (apply in_into; eauto). apply hd_only; auto.
        intros j J Yj. apply (one_unique (dec b) (into_node E v)); auto using into_nodup. apply (Fac (Enter v)). now apply in_nodes. }
    assert (At : forall c, In c nodes -> In i (scope c) -> (exists k, c = Sub k) \/ c = Leave u \/ c = Enter v).
    { intros c0 J0 J. apply (scope_at i u v) in J; auto. destruct c0; [right; left|right; right|left]; try congruence. eauto. }
    destruct (At c Ic I) as [(k & ->)|Kc]; [left; auto|]. destruct (At c' Ic' I') as [(k & ->)|Kc']; [right; auto|].
    apply W; intro Q; destruct Kc as [->| ->], Kc' as [->| ->]; try congruence; auto. }
  pose proof (settled_charged Nat.eq_dec idx nodes scope allow cost b m d Z e e2 y charged owner (seq_NoDup _ _) nodes_nodup scope_ok belief received settled
    H1 gap (fun c i Ic _ => sent c i Ic) Ay Hown) as Q. cbv zeta beta in Q.
  assert (T1 : total (map cost idx) (map (dec b) idx) = cover_cost C s) by (apply cover_total; auto).
  assert (T2 : total (map cost idx) (map y idx) = cover_cost C s') by (apply cover_total; auto).
  assert (Ch : forall z t, (forall i, i < length E -> z i = covered E t i) ->
    qsum (map (fun c => total (map (Z c) (scope c)) (map z (scope c))) (filter charged nodes)) = charge E D Y K t).
  { intros z t Hz. assert (F : filter charged nodes = map Sub (filter K (seq 0 (length D)))).
    { unfold nodes. rewrite !filter_app. assert (None : forall g : nat -> node, (forall u, charged (g u) = false) -> forall l, filter charged (map g l) = []).
      { intros g Hg' l. induction l as [|x l IH]; [reflexivity|]. cbn [map filter]. now rewrite Hg'. }
      rewrite !None by reflexivity.
      cbn [app]. generalize (seq 0 (length D)). intro l. induction l as [|k l IH]; [reflexivity|]. cbn. destruct (K k); cbn; now rewrite IH. }
    rewrite F, map_map. unfold charge. apply sum_ext. intros k Ik. apply filter_In in Ik as (Ik & _). apply in_seq in Ik. cbn [Z scope].
    rewrite total_sum, sum_filter. apply sum_ext. intros i I. rewrite Hz; [reflexivity|]. apply (Bd (Sub k)); [apply in_nodes; lia|exact I]. }
  rewrite T1, T2, (Ch (dec b) s), (Ch y s') in Q; auto.
  match type of Q with (_ <= _ + ?z)%Qc => match goal with |- (_ <= _ + ?z')%Qc => assert (Le : (z <= z')%Qc); [|clear - Q Le; qlra] end end.
  rewrite (filter_ext_in (dif b y) (swapped E s s')) by (intros i I; apply in_seq in I; apply Df; lia).
  apply sum_le. intros i Ii. apply filter_In in Ii as (Ii & _). apply in_seq in Ii. destruct (edge_get i) as (u & v & G); [lia|].
  set (act := fun c => negb (charged c)).
  assert (Dg2 : deg Nat.eq_dec nodes scope act i <= 2 + length D).
  { unfold deg. rewrite <- filter_filter_and. rewrite (filter_ext _ (fun c => inc Nat.eq_dec scope i c && act c)) by (intros; apply andb_comm).
    rewrite filter_filter_and. rewrite (inc_nodes i u v G).
    match goal with |- length (filter act ?l) <= _ => pose proof (filter_shorter act l) as L1 end.
    cbn [length] in L1. rewrite map_length in L1. unfold holding in L1.
    pose proof (filter_shorter (fun s => occurs i (nth s D [])) (seq 0 (length D))) as L2. rewrite seq_length in L2. unfold holding. lia. }
  unfold slack. apply Qcplus_le_compat; apply qn_le; try lia; auto.
Qed.
End Stage.
