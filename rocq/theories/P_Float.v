(** * Rounded runs that need no rounding. *)
From Verif Require Import Num NumFacts Arr ArrFacts SpecRound M_Equality M_Filter M_Ksat M_Kc_Trellis
  M_Knapsack M_InOut M_Runs M_Tsp_Constraints M_Tsp_Loops M_Tsp_Run M_Tsp_Py M_Float.
Local Open Scope nat_scope.

(** ** Two computations that agree, and a property of their result *)
Definition same {A} (P : A -> Prop) (x y : option A) : Prop :=
  x = y /\ forall r, y = Some r -> P r.

Lemma same_ret {A} (P : A -> Prop) a b : a = b -> P b -> same P (Some a) (Some b).
Proof. intros -> H. split; [reflexivity|]. intros r E. injection E as <-. exact H. Qed.
Lemma same_none {A} (P : A -> Prop) : same P (@None A) None.
Proof. split; [reflexivity|]. discriminate. Qed.
Lemma same_bind {A B} (P : A -> Prop) (Q : B -> Prop) x y f g :
  same P x y -> (forall a, P a -> same Q (f a) (g a)) -> same Q (bind x f) (bind y g).
Proof.
  intros [-> H] K. destruct y as [a|]; cbn [bind]; [apply K, H; reflexivity | apply same_none].
Qed.
Lemma same_weaken {A} (P Q : A -> Prop) x y : (forall a, P a -> Q a) -> same P x y -> same Q x y.
Proof. intros K [E H]. split; auto. Qed.
Lemma same_any {A} (x : option A) : same (fun _ => True) x x.
Proof. split; auto. Qed.
Lemma same_get {A} (P : A -> Prop) l i : Forall P l -> same P (get l i) (get l i).
Proof.
  intros H. split; [reflexivity|]. intros r E. rewrite Forall_forall in H. apply H.
  exact (nth_error_In _ _ E).
Qed.
Lemma Forall_upd {A} (P : A -> Prop) v : P v -> forall l i, Forall P l -> Forall P (upd l i v).
Proof.
  intros Hv. induction l as [|a l IH]; intros i H; [exact H|].
  inversion H as [|? ? Ha Hl]; subst. destruct i; cbn [upd]; constructor; auto.
Qed.
Lemma same_set {A} (P : A -> Prop) l i v w : v = w -> Forall P l -> P w ->
  same (Forall P) (set l i v) (set l i w).
Proof.
  intros -> H Hv. unfold set. destruct (i <? length l); [|apply same_none].
  apply same_ret; [reflexivity|]. apply Forall_upd; assumption.
Qed.
Definition mat {A} (P : A -> Prop) (m : list (list A)) : Prop := Forall (Forall P) m.
Lemma same_get2 {A} (P : A -> Prop) m i j : mat P m -> same P (get2 m i j) (get2 m i j).
Proof.
  intros H. unfold get2. apply same_bind with (P := Forall P); [apply same_get; exact H|].
  intros r Hr. apply same_get. exact Hr.
Qed.
Lemma same_set2 {A} (P : A -> Prop) m i j v w : v = w -> mat P m -> P w ->
  same (mat P) (set2 m i j v) (set2 m i j w).
Proof.
  intros -> H Hv. unfold set2. apply same_bind with (P := Forall P); [apply same_get; exact H|].
  intros r Hr. apply same_bind with (P := Forall P); [apply same_set; auto|].
  intros r' Hr'. apply same_set; auto.
Qed.

(** Loops: the invariant may count the rounds. *)
Lemma same_foldM {S A} (I : nat -> S -> Prop) (f g : S -> A -> option S) l : forall k s,
  I k s ->
  (forall i a s, nth_error l i = Some a -> I (k + i) s -> same (I (k + i + 1)) (f s a) (g s a)) ->
  same (I (k + length l)) (foldM f l s) (foldM g l s).
Proof.
  induction l as [|a l IH]; intros k s Hs H; cbn [foldM length].
  - apply same_ret; [reflexivity|]. rewrite Nat.add_0_r. exact Hs.
  - apply same_bind with (P := I (k + 1)).
    + specialize (H 0 a s eq_refl). rewrite Nat.add_0_r in H. apply H. exact Hs.
    + intros s' Hs'. replace (k + Datatypes.S (length l)) with ((k + 1) + length l) by lia.
      apply IH; [exact Hs'|]. intros i b t E Ht. specialize (H (Datatypes.S i) b t E).
      replace (k + Datatypes.S i) with (k + 1 + i) in H by lia. apply H. exact Ht.
Qed.
Lemma same_fold {S A} (I : S -> Prop) (f g : S -> A -> option S) l s : I s ->
  (forall a s, In a l -> I s -> same I (f s a) (g s a)) -> same I (foldM f l s) (foldM g l s).
Proof.
  intros Hs H. apply (same_foldM (fun _ => I) f g l 0 s Hs).
  intros i a t E. apply H. exact (nth_error_In _ _ E).
Qed.
Lemma same_for {S} (I : S -> Prop) lo hi (f g : S -> nat -> option S) s : I s ->
  (forall i s, lo <= i < hi -> I s -> same I (f s i) (g s i)) ->
  same I (for_up lo hi s f) (for_up lo hi s g).
Proof.
  intros Hs H. unfold for_up. apply same_fold; [exact Hs|]. intros a t Ha. apply in_seq in Ha.
  apply H. lia.
Qed.
Lemma same_for_count {S} (I : nat -> S -> Prop) hi (f g : S -> nat -> option S) s : I 0 s ->
  (forall i s, i < hi -> I i s -> same (I (i + 1)) (f s i) (g s i)) ->
  same (I hi) (for_up 0 hi s f) (for_up 0 hi s g).
Proof.
  intros Hs H. unfold for_up. rewrite Nat.sub_0_r.
  pose proof (same_foldM I f g (seq 0 hi) 0 s Hs) as K. rewrite seq_length in K. cbn [plus] in K.
  apply K. intros i a t E Ht.
  assert (Hi : i < hi) by (rewrite <- (seq_length hi 0); apply nth_error_Some; rewrite E; discriminate).
  assert (a = i).
  { pose proof (nth_error_nth _ _ 0 E) as X. rewrite seq_nth in X; lia. }
  subst a. apply H; assumption.
Qed.
Lemma same_down {S} (I : S -> Prop) lo hi (f g : S -> nat -> option S) s : I s ->
  (forall i s, lo <= i < hi -> I s -> same I (f s i) (g s i)) ->
  same I (for_down lo hi s f) (for_down lo hi s g).
Proof.
  intros Hs H. unfold for_down. apply same_fold; [exact Hs|]. intros a t Ha.
  apply in_rev in Ha. apply in_seq in Ha. apply H. lia.
Qed.

Lemma Forall_repeat {A} (P : A -> Prop) a n : P a -> Forall P (repeat a n).
Proof. intros H. induction n; cbn; constructor; auto. Qed.
Lemma Forall_skipn {A} (P : A -> Prop) n : forall l, Forall P l -> Forall P (skipn n l).
Proof.
  induction n; intros l H; [exact H|]. destruct l; [constructor|]. cbn.
  apply IHn. inversion H; assumption.
Qed.
Lemma Forall_firstn {A} (P : A -> Prop) n : forall l, Forall P l -> Forall P (firstn n l).
Proof.
  induction n; intros l H; [constructor|]. destruct l; [constructor|]. cbn.
  inversion H; subst. constructor; auto.
Qed.
Lemma same_copy {A} (P : A -> Prop) a out : Forall P a -> Forall P out ->
  same (Forall P) (copy_into a out) (copy_into a out).
Proof.
  intros Ha Ho. unfold copy_into. destruct (length a <=? length out); [|apply same_none].
  apply same_ret; [reflexivity|]. apply Forall_app. split; [exact Ha | apply Forall_skipn; exact Ho].
Qed.
Lemma same_transform2 {A B C} (P : A -> Prop) (Q : B -> Prop) (R : C -> Prop) f g a b out :
  (forall x y, P x -> Q y -> f x y = g x y /\ R (g x y)) ->
  Forall P a -> Forall Q b -> Forall R out ->
  same (Forall R) (transform2 f a b out) (transform2 g a b out).
Proof.
  intros H Ha Hb Ho. unfold transform2. destruct ((length a <=? length b) && (length a <=? length out));
    [|apply same_none].
  assert (E : zip_with f a b = zip_with g a b /\ Forall R (zip_with g a b)).
  { clear Ho. unfold zip_with. revert b Hb. induction a as [|x a IH]; intros b Hb; [repeat constructor|].
    destruct b as [|y b]; [repeat constructor|]. inversion Ha; subst. inversion Hb; subst.
    destruct (IH H3 b H5) as [E F]. destruct (H x y H2 H4) as [E1 F1]. cbn. rewrite E1, E.
    split; [reflexivity|]. constructor; assumption. }
  destruct E as [-> F]. apply same_ret; [reflexivity|]. apply Forall_app. split; [exact F|].
  apply Forall_skipn. exact Ho.
Qed.

(** ** Numbers on a grid *)
Lemma zq_add a b : zq (a + b) = (zq a + zq b)%Qc.
Proof.
  apply Qc_is_canon. unfold zq, Qcplus, Q2Qc. cbn [this]. rewrite !Qred_correct, inject_Z_plus. reflexivity.
Qed.
Lemma zq_mul a b : zq (a * b) = (zq a * zq b)%Qc.
Proof.
  apply Qc_is_canon. unfold zq, Qcmult, Q2Qc. cbn [this]. rewrite !Qred_correct, inject_Z_mult. reflexivity.
Qed.
Lemma zq_opp a : zq (- a) = (- zq a)%Qc.
Proof.
  apply Qc_is_canon. unfold zq, Qcopp, Q2Qc. cbn [this]. rewrite !Qred_correct, inject_Z_opp. reflexivity.
Qed.

Section Grid.
Variables (u : Qc) (N : Z) (rnd : Qc -> num).
(** multiples of [u] that are not too large, and the numbers that are not finite *)
Definition on (B : Z) (v : num) : Prop :=
  match v with Fin q => exists z, q = (zq z * u)%Qc /\ (Z.abs z <= B)%Z | _ => True end.
Definition exact_upto : Prop :=
  forall z, (Z.abs z <= N)%Z -> rnd (zq z * u)%Qc = Fin (zq z * u)%Qc.
Hypothesis Hrnd : exact_upto.

Lemma on_mono A B v : (A <= B)%Z -> on A v -> on B v.
Proof. intros H. destruct v; cbn; auto. intros (z & E & L). exists z. split; [exact E | lia]. Qed.
Lemma on_0 B : (0 <= B)%Z -> on B n0.
Proof. intros H. exists 0%Z. split; [|cbn; lia]. replace (zq 0) with 0%Qc by (apply Qc_is_canon; reflexivity). ring. Qed.
Lemma on_opp B v : on B v -> on B (nopp v).
Proof.
  destruct v; cbn; auto. intros (z & E & L). exists (- z)%Z. split; [|lia].
  rewrite E. rewrite zq_opp. ring.
Qed.
Lemma on_min B v w : on B v -> on B w -> on B (nmin v w).
Proof. intros Hv Hw. unfold nmin. destruct (nlt w v); assumption. Qed.
Lemma add_exact A B v w : on A v -> on B w -> (A + B <= N)%Z ->
  fadd rnd v w = nadd v w /\ on (A + B) (nadd v w).
Proof.
  intros Hv Hw L. destruct v as [x| | |], w as [y| | |]; cbn [fadd nadd on]; auto.
  destruct Hv as (a & -> & La), Hw as (b & -> & Lb).
  replace (zq a * u + zq b * u)%Qc with (zq (a + b) * u)%Qc by (rewrite zq_add; ring).
  split; [apply Hrnd; lia|]. exists (a + b)%Z. split; [reflexivity | lia].
Qed.
Lemma sub_exact A B v w : on A v -> on B w -> (A + B <= N)%Z ->
  fsub rnd v w = nsub v w /\ on (A + B) (nsub v w).
Proof. intros Hv Hw L. apply add_exact; [exact Hv | apply on_opp; exact Hw | exact L]. Qed.
Lemma mul_sign_exact B v t : (t = 1 \/ t = -1)%Z -> on B v -> (B <= N)%Z ->
  fmul rnd v (zn t) = nmul v (zn t) /\ on B (nmul v (zn t)).
Proof.
  intros Ht Hv L. destruct v as [x| | |]; cbn [fmul nmul zn].
  - destruct Hv as (z & -> & Lz).
    assert (E : exists z', (zq z * u * zq t = zq z' * u)%Qc /\ (Z.abs z' <= B)%Z).
    { exists (z * t)%Z. split; [|destruct Ht; subst; lia].
      rewrite zq_mul. ring. }
    destruct E as (z' & E & Lz'). rewrite E. split; [apply Hrnd; lia|]. exists z'. auto.
  - split; [reflexivity|]. destruct Ht; subst; exact I.
  - split; [reflexivity|]. destruct Ht; subst; exact I.
  - split; [reflexivity|exact I].
Qed.

(** ** Sums *)
Lemma plus_same A B C a b out : Forall (on A) a -> Forall (on B) b -> Forall (on C) out ->
  (A + B <= C)%Z -> (C <= N)%Z ->
  same (Forall (on C)) (plus_into_f rnd a b out) (plus_into a b out).
Proof.
  intros Ha Hb Ho L1 L2. unfold plus_into_f, plus_into.
  apply same_transform2 with (P := on A) (Q := on B); auto. intros x y Hx Hy.
  destruct (add_exact A B x y Hx Hy) as [E F]; [lia|]. split; [exact E|].
  eapply on_mono; [|exact F]. lia.
Qed.

Ltac by_on := first [assumption | exact I | apply on_0; lia | apply on_min; by_on | apply on_opp; by_on
                    | eapply on_mono; [|eassumption]; lia].
Lemma mat_zeros B n k : (0 <= B)%Z -> mat (on B) (zeros n k).
Proof. intros H. apply Forall_repeat, Forall_repeat, on_0, H. Qed.
Lemma mat_mono A B m : (A <= B)%Z -> mat (on A) m -> mat (on B) m.
Proof.
  intros L H. eapply Forall_impl; [|exact H]. intros r Hr. eapply Forall_impl; [|exact Hr].
  intros v. apply on_mono. exact L.
Qed.
Lemma row_mono A B r : (A <= B)%Z -> Forall (on A) r -> Forall (on B) r.
Proof. intros L H. eapply Forall_impl; [|exact H]. intros v. apply on_mono. exact L. Qed.

(** ** Degree and subtour constraints: no arithmetic at all *)
Lemma fwd_pass_on B conn rd fwd : (forall e, same (on B) (rd e) (rd e)) -> Forall (on B) fwd ->
  same (Forall (on B)) (fwd_pass conn rd fwd) (fwd_pass conn rd fwd).
Proof.
  intros Hr Hf. unfold fwd_pass. apply same_bind with (P := fun _ => True); [apply same_any|].
  intros c _. apply same_bind with (P := Forall (on B)); [apply same_set; auto; exact I|].
  intros f Hf'. apply same_for; [exact Hf'|]. intros i g _ Hg.
  apply same_bind with (P := fun _ => True); [apply same_any|]. intros c1 _.
  apply same_bind with (P := fun _ => True); [apply same_any|]. intros c2 _.
  apply same_bind with (P := on B); [apply same_get; exact Hg|]. intros a Ha.
  apply same_bind with (P := on B); [apply Hr|]. intros m Hm.
  apply same_set; auto. apply on_min; assumption.
Qed.
Lemma bwd_pass_on B conn rd bwd : (forall e, same (on B) (rd e) (rd e)) -> Forall (on B) bwd ->
  same (Forall (on B)) (bwd_pass conn rd bwd) (bwd_pass conn rd bwd).
Proof.
  intros Hr Hf. unfold bwd_pass. apply same_bind with (P := fun _ => True); [apply same_any|].
  intros c _. apply same_bind with (P := Forall (on B)); [apply same_set; auto; exact I|].
  intros f Hf'. apply same_down; [exact Hf'|]. intros i g _ Hg.
  apply same_bind with (P := fun _ => True); [apply same_any|]. intros c1 _.
  apply same_bind with (P := fun _ => True); [apply same_any|]. intros c2 _.
  apply same_bind with (P := on B); [apply same_get; exact Hg|]. intros a Ha.
  apply same_bind with (P := on B); [apply Hr|]. intros m Hm.
  apply same_set; auto. apply on_min; assumption.
Qed.
Lemma out_pass_on B conn fwd bwd post (wr : list (list num) -> nat -> num -> option (list (list num))) out :
  Forall (on B) fwd -> Forall (on B) bwd -> mat (on B) out ->
  (forall v, on B v -> on B (post v)) ->
  (forall o e v, mat (on B) o -> on B v -> same (mat (on B)) (wr o e v) (wr o e v)) ->
  same (mat (on B)) (out_pass conn fwd bwd post wr out) (out_pass conn fwd bwd post wr out).
Proof.
  intros Hf Hb Ho Hp Hw. unfold out_pass. apply same_for; [exact Ho|]. intros i g _ Hg.
  apply same_bind with (P := fun _ => True); [apply same_any|]. intros c1 _.
  apply same_bind with (P := on B); [apply same_get; exact Hf|]. intros a Ha.
  apply same_bind with (P := on B); [apply same_get; exact Hb|]. intros b Hb'.
  apply Hw; [exact Hg|]. apply Hp, on_min; assumption.
Qed.
Definition three B (st : list num * list num * list (list num)) : Prop :=
  Forall (on B) (fst (fst st)) /\ Forall (on B) (snd (fst st)) /\ mat (on B) (snd st).
Lemma degree_on B n e edges msgs out : (0 <= B)%Z -> mat (on B) msgs -> mat (on B) out ->
  same (mat (on B)) (degree_update n e edges msgs out) (degree_update n e edges msgs out).
Proof.
  intros HB Hm Ho. unfold degree_update. apply same_bind with (P := three B).
  - apply same_for; [repeat split; try exact Ho; apply Forall_repeat, on_0, HB|].
    intros i [[fwd bwd] o] _ (Hf & Hb & Hout). cbn [fst snd] in Hf, Hb, Hout. unfold degree_node.
    destruct (connections edges i 0 [] []) as [first second].
    assert (Hrd : forall e0, same (on B) (get2 msgs e0 i) (get2 msgs e0 i))
      by (intros; apply same_get2; exact Hm).
    assert (Hwr : forall o e v, mat (on B) o -> on B v -> same (mat (on B)) (set2 o e i v) (set2 o e i v))
      by (intros; apply same_set2; auto).
    apply same_bind with (P := Forall (on B)); [apply fwd_pass_on; assumption|]. intros f1 H1.
    apply same_bind with (P := Forall (on B)); [apply bwd_pass_on; assumption|]. intros b1 H2.
    apply same_bind with (P := mat (on B));
      [apply out_pass_on; auto; intros v; apply on_opp|]. intros o1 H3.
    apply same_bind with (P := Forall (on B));
      [apply fwd_pass_on; [assumption | apply Forall_repeat, on_0, HB]|]. intros f2 H4.
    apply same_bind with (P := Forall (on B));
      [apply bwd_pass_on; [assumption | apply Forall_repeat, on_0, HB]|]. intros b2 H5.
    apply same_bind with (P := mat (on B));
      [apply out_pass_on; auto; intros v; apply on_opp|]. intros o2 H6.
    apply same_ret; [reflexivity|]. repeat split; assumption.
  - intros [[f b] o] (_ & _ & H). apply same_ret; [reflexivity | exact H].
Qed.
Lemma subtour_on B e deltas msgs out : (0 <= B)%Z -> mat (on B) msgs -> mat (on B) out ->
  same (mat (on B)) (subtour_update e deltas msgs out) (subtour_update e deltas msgs out).
Proof.
  intros HB Hm Ho. unfold subtour_update. apply same_bind with (P := three B).
  - apply same_for; [repeat split; try exact Ho; apply Forall_repeat, on_0, HB|].
    intros i [[fwd bwd] o] _ (Hf & Hb & Hout). cbn [fst snd] in Hf, Hb, Hout. unfold subtour_one.
    apply same_bind with (P := fun _ => True); [apply same_any|]. intros conn _.
    assert (Hrd : forall e0, same (on B) (get2 msgs i e0) (get2 msgs i e0))
      by (intros; apply same_get2; exact Hm).
    assert (Hwr : forall o e v, mat (on B) o -> on B v -> same (mat (on B)) (set2 o i e v) (set2 o i e v))
      by (intros; apply same_set2; auto).
    apply same_bind with (P := Forall (on B)); [apply fwd_pass_on; assumption|]. intros f1 H1.
    apply same_bind with (P := Forall (on B)); [apply bwd_pass_on; assumption|]. intros b1 H2.
    apply same_bind with (P := mat (on B));
      [apply out_pass_on; auto; intros v Hv; apply on_min; [apply on_opp, Hv | apply on_0, HB]|].
    intros o1 H3. apply same_ret; [reflexivity|]. repeat split; assumption.
  - intros [[f b] o] (_ & _ & H). apply same_ret; [reflexivity | exact H].
Qed.

(** ** Edge messages *)
Lemma flip_on B m edges f : mat (on B) m -> mat (on B) f ->
  same (mat (on B)) (flip_matrix m edges f) (flip_matrix m edges f).
Proof.
  intros Hm Hf. unfold flip_matrix. apply same_for; [exact Hf|]. intros i g _ Hg.
  apply same_bind with (P := fun _ => True); [apply same_any|]. intros [r c] _.
  apply same_bind with (P := on B); [apply same_get2; exact Hm|]. intros a Ha.
  apply same_bind with (P := mat (on B)); [apply same_set2; auto|]. intros g' Hg'.
  apply same_bind with (P := on B); [apply same_get2; exact Hm|]. intros b Hb.
  apply same_set2; auto.
Qed.
Lemma edge_relaxed_same D C E e edges cost deg out : mat (on D) deg -> mat (on C) cost ->
  mat (on E) out -> (D + C <= E)%Z -> (E <= N)%Z ->
  same (mat (on E)) (edge_to_degree_relaxed_f rnd e edges cost deg out)
       (edge_to_degree_relaxed e edges cost deg out).
Proof.
  intros Hd Hc Ho L1 L2. unfold edge_to_degree_relaxed_f, edge_to_degree_relaxed.
  apply same_bind with (P := mat (on D)); [apply flip_on; exact Hd|]. intros fl Hfl.
  apply same_for; [exact Ho|]. intros i o _ Ho'.
  apply same_bind with (P := Forall (on D)); [apply same_get; exact Hfl|]. intros a Ha.
  apply same_bind with (P := Forall (on C)); [apply same_get; exact Hc|]. intros b Hb.
  apply same_bind with (P := Forall (on E)); [apply same_get; exact Ho'|]. intros r Hr.
  apply same_bind with (P := Forall (on E)); [eapply plus_same; eassumption|]. intros r' Hr'.
  apply same_set; auto.
Qed.
Lemma sum_rows_same B K e rows : mat (on B) rows -> (0 <= B)%Z -> length rows <= K ->
  (Z.of_nat K * B <= N)%Z ->
  same (Forall (on (Z.of_nat K * B))) (sum_rows_f rnd e rows) (sum_rows e rows).
Proof.
  intros Hm HB HK L. unfold sum_rows_f, sum_rows.
  eapply same_weaken; [|apply (same_foldM (fun k => Forall (on (Z.of_nat k * B))) _ _ rows 0)].
  - intros r. cbn [plus]. apply row_mono. nia.
  - apply Forall_repeat, on_0. lia.
  - cbn [plus]. intros i a s E Hs.
    assert (Hi : i < length rows) by (apply nth_error_Some; rewrite E; discriminate).
    apply plus_same with (A := (Z.of_nat i * B)%Z) (B := B); auto.
    + eapply Forall_forall in Hm; [exact Hm | exact (nth_error_In _ _ E)].
    + eapply row_mono; [|exact Hs]. nia.
    + nia.
    + nia.
Qed.
Lemma combined_same D e edges deg : mat (on D) deg -> (0 <= D)%Z -> (D + D <= N)%Z ->
  same (Forall (on (D + D))) (combined_degree_f rnd e edges deg) (combined_degree e edges deg).
Proof.
  intros Hd HD L. unfold combined_degree_f, combined_degree.
  apply same_for; [apply Forall_repeat, on_0; lia|]. intros i s _ Hs.
  apply same_bind with (P := fun _ => True); [apply same_any|]. intros [a b] _.
  apply same_bind with (P := on D); [apply same_get2; exact Hd|]. intros x Hx.
  apply same_bind with (P := on D); [apply same_get2; exact Hd|]. intros y Hy.
  destruct (add_exact D D x y Hx Hy L) as [Ea Fa]. apply same_set; auto.
Qed.
(** bound on the messages from edges to subtour constraints *)
Definition to_subtour (K : nat) (B C : Z) : Z := (Z.of_nat K * B + (B + B) + C + B)%Z.
Lemma edge_to_subtour_same B C K e deltas cost deg sub edges :
  Forall (on C) cost -> mat (on B) deg -> mat (on B) sub -> length sub <= K ->
  (0 <= B)%Z -> (0 <= C)%Z -> (to_subtour K B C <= N)%Z ->
  same (mat (on (to_subtour K B C))) (edge_to_subtour_f rnd e deltas cost deg sub edges)
       (edge_to_subtour e deltas cost deg sub edges).
Proof.
  intros Hc Hd Hs HK HB HC L. unfold edge_to_subtour_f, edge_to_subtour. unfold to_subtour in *.
  assert (0 <= Z.of_nat K * B)%Z by nia.
  destruct (length deltas =? 1).
  - apply same_bind with (P := Forall (on (B + B)));
      [apply combined_same; auto; lia|]. intros comb Hcomb.
    apply same_bind with (P := fun _ => True); [apply same_any|]. intros d _.
    apply same_bind with (P := Forall (on (Z.of_nat K * B + (B + B) + C + B))).
    + apply same_for; [apply Forall_repeat, on_0; lia|]. intros i r _ Hr.
      apply same_bind with (P := fun _ => True); [apply same_any|]. intros x _.
      apply same_bind with (P := on (B + B)); [apply same_get; exact Hcomb|]. intros a Ha.
      apply same_bind with (P := on C); [apply same_get; exact Hc|]. intros c Hcc.
      destruct (add_exact (B + B) C a c Ha Hcc) as [Ea Fa]; [lia|].
      apply same_set; auto. eapply on_mono; [|exact Fa]. lia.
    + intros row Hrow. apply same_ret; [reflexivity|]. repeat constructor. exact Hrow.
  - apply same_bind with (P := Forall (on (Z.of_nat K * B)));
      [apply sum_rows_same; auto; lia|]. intros subs Hsubs.
    apply same_bind with (P := Forall (on (B + B)));
      [apply combined_same; auto; lia|]. intros comb Hcomb.
    apply same_for; [constructor|]. intros s acc _ Hacc.
    apply same_bind with (P := fun _ => True); [apply same_any|]. intros d _.
    apply same_bind with (P := Forall (on (Z.of_nat K * B + (B + B) + C + B))).
    + apply same_for; [apply Forall_repeat, on_0; lia|]. intros i r _ Hr.
      apply same_bind with (P := fun _ => True); [apply same_any|]. intros x _.
      apply same_bind with (P := on (Z.of_nat K * B)); [apply same_get; exact Hsubs|]. intros y Hy.
      apply same_bind with (P := on (B + B)); [apply same_get; exact Hcomb|]. intros a Ha.
      apply same_bind with (P := on C); [apply same_get; exact Hc|]. intros c Hcc.
      apply same_bind with (P := on B); [apply same_get2; exact Hs|]. intros m Hm.
      destruct (add_exact _ _ y a Hy Ha) as [E1 F1]; [lia|].
      destruct (add_exact _ _ _ c F1 Hcc) as [E2 F2]; [lia|].
      destruct (sub_exact _ _ _ m F2 Hm) as [E3 F3]; [lia|].
      apply same_set; auto. rewrite E1, E2, E3. reflexivity.
    + intros row Hrow. apply same_ret; [reflexivity|]. apply Forall_app. split; [exact Hacc|].
      repeat constructor. exact Hrow.
Qed.
Lemma edge_augmented_same B S C K E e deg sub edges cost out :
  mat (on B) deg -> mat (on S) sub -> mat (on C) cost -> mat (on E) out -> length sub <= K ->
  (0 <= B)%Z -> (0 <= S)%Z -> (0 <= C)%Z ->
  (Z.of_nat K * S + B + C <= E)%Z -> (E <= N)%Z ->
  same (mat (on E)) (edge_to_degree_augmented_f rnd e deg sub edges cost out)
       (edge_to_degree_augmented e deg sub edges cost out).
Proof.
  intros Hd Hs Hc Ho HK HB HS HC L1 L2. unfold edge_to_degree_augmented_f, edge_to_degree_augmented.
  assert (0 <= Z.of_nat K * S)%Z by nia.
  apply same_bind with (P := Forall (on (Z.of_nat K * S)));
    [apply sum_rows_same; auto; lia|]. intros subs Hsubs.
  apply same_for; [exact Ho|]. intros i o _ Ho'.
  apply same_bind with (P := fun _ => True); [apply same_any|]. intros [a b] _.
  apply same_bind with (P := on (Z.of_nat K * S)); [apply same_get; exact Hsubs|]. intros s Hs'.
  apply same_bind with (P := on B); [apply same_get2; exact Hd|]. intros dv Hdv.
  apply same_bind with (P := on C); [apply same_get2; exact Hc|]. intros cu Hcu.
  destruct (add_exact _ _ s dv Hs' Hdv) as [E1 F1]; [lia|].
  destruct (add_exact _ _ _ cu F1 Hcu) as [E2 F2]; [lia|].
  apply same_bind with (P := mat (on E)).
  { apply same_set2; auto; [rewrite E1, E2; reflexivity|]. eapply on_mono; [|exact F2]. lia. }
  intros o1 Ho1.
  apply same_bind with (P := on B); [apply same_get2; exact Hd|]. intros du Hdu.
  apply same_bind with (P := on C); [apply same_get2; exact Hc|]. intros cv Hcv.
  destruct (add_exact _ _ s du Hs' Hdu) as [E3 F3]; [lia|].
  destruct (add_exact _ _ _ cv F3 Hcv) as [E4 F4]; [lia|].
  apply same_set2; auto; [rewrite E3, E4; reflexivity|]. eapply on_mono; [|exact F4]. lia.
Qed.

(** ** Filtering switched off *)
Definition unfiltered (flag : bool) (alpha : num) : Prop := flag && negb (neqb alpha n0) = false.
Lemma filter_at_same flag alpha iter i (P : list num -> Prop) dummy old out :
  unfiltered flag alpha ->
  (forall d r x, nth_error dummy i = Some d -> nth_error out i = Some r -> copy_into d r = Some x -> P x) ->
  Forall P out ->
  same (fun r => Forall P (fst r) /\ snd r = old)
       (filter_at_f rnd flag alpha iter i dummy old out) (filter_at flag alpha iter i dummy old out).
Proof.
  intros Hu Hp Ho. unfold unfiltered in Hu. unfold filter_at_f, filter_at.
  unfold filter_row_f, filter_row. rewrite !Hu.
  unfold get. destruct (nth_error dummy i) as [d|] eqn:Ed; [|apply same_none]. cbn [bind].
  destruct (nth_error out i) as [r|] eqn:Er; [|apply same_none]. cbn [bind].
  destruct (copy_into d r) as [x|] eqn:Ex; [|apply same_none]. cbn [bind].
  apply same_bind with (P := Forall P).
  - apply same_set; auto. exact (Hp d r x eq_refl eq_refl Ex).
  - intros o Ho'. apply same_ret; [reflexivity|]. split; [exact Ho' | reflexivity].
Qed.
Lemma filtering_same flag alpha iter n (P : list num -> Prop) dummy old out :
  unfiltered flag alpha ->
  (forall d r x, In d dummy -> P r -> copy_into d r = Some x -> P x) ->
  Forall P out ->
  same (fun r => Forall P (fst r) /\ snd r = old /\ length (fst r) = length out)
       (process_filtering_f rnd flag alpha iter n dummy old out)
       (process_filtering flag alpha iter n dummy old out).
Proof.
  intros Hu Hp Ho. unfold process_filtering_f, process_filtering.
  apply same_for; [repeat split; exact Ho|]. intros i [o od] _ (H1 & H2 & H3). cbn [fst snd] in *. subst od.
  pose proof (filter_at_same flag alpha iter i P dummy old o Hu) as K.
  destruct K as [E F].
  - intros d r x Ed Er Ex. apply (Hp d r x); auto; [exact (nth_error_In _ _ Ed)|].
    rewrite Forall_forall in H1. apply H1. exact (nth_error_In _ _ Er).
  - exact H1.
  - split; [exact E|]. intros [o' od'] R. destruct (F _ R) as [F1 F2]. cbn [fst snd] in *.
    split; [exact F1|]. split; [exact F2|].
    unfold filter_at in R. unfold unfiltered in Hu. rewrite Hu in R.
    destruct (get dummy i) as [d|]; [|discriminate R]. cbn [bind] in R.
    destruct (get o i) as [r|]; [|discriminate R]. cbn [bind] in R.
    unfold filter_row in R. rewrite Hu in R.
    destruct (copy_into d r) as [x|]; [|discriminate R]. cbn [bind] in R.
    unfold set in R. destruct (i <? length o); [|discriminate R]. cbn [bind] in R.
    injection R as <- _. rewrite upd_length. exact H3.
Qed.
Lemma filtering_on flag alpha iter n B k dummy old out : unfiltered flag alpha ->
  mat (on B) dummy -> mat (on B) out -> Forall (fun r => length r = k) out ->
  same (fun r => mat (on B) (fst r) /\ Forall (fun r => length r = k) (fst r) /\ snd r = old
                 /\ length (fst r) = length out)
       (process_filtering_f rnd flag alpha iter n dummy old out)
       (process_filtering flag alpha iter n dummy old out).
Proof.
  intros Hu Hd Ho Hk.
  eapply same_weaken; [|apply (filtering_same flag alpha iter n (fun r => Forall (on B) r /\ length r = k))].
  - intros [o od] (H1 & H2 & H3). cbn [fst snd] in *. repeat split; auto.
    + eapply Forall_impl; [|exact H1]. intros r [H _]. exact H.
    + eapply Forall_impl; [|exact H1]. intros r [_ H]. exact H.
  - exact Hu.
  - intros d r x Hin [Hr1 Hr2] Hx.
    assert (Hd' : Forall (on B) d) by exact (proj1 (Forall_forall _ _) Hd d Hin).
    destruct (same_copy (on B) d r Hd' Hr1) as [_ F]. split; [exact (F x Hx)|].
    unfold copy_into in Hx. destruct (length d <=? length r) eqn:E; [|discriminate Hx].
    apply Nat.leb_le in E. injection Hx as <-. rewrite app_length, skipn_length. lia.
  - apply Forall_forall. intros r Hr. split; [exact (proj1 (Forall_forall _ _) Ho r Hr) | exact (proj1 (Forall_forall _ _) Hk r Hr)].
Qed.

(** ** Outputs *)
Lemma accumulate_same B k r : Forall (on B) r -> length r <= k -> (0 <= B)%Z -> (Z.of_nat k * B <= N)%Z ->
  accumulate_f rnd r = accumulate r /\ on (Z.of_nat k * B) (accumulate r).
Proof.
  intros Hr Hk HB L. unfold accumulate_f, accumulate.
  assert (G : forall r A a, Forall (on B) r -> on A a -> (A + Z.of_nat (length r) * B <= N)%Z ->
    fold_left (fadd rnd) r a = fold_left nadd r a
    /\ on (A + Z.of_nat (length r) * B) (fold_left nadd r a)).
  { clear r Hr Hk. induction r as [|x r IH]; intros A a Hr Ha LA; cbn [fold_left length].
    - split; [reflexivity|]. eapply on_mono; [|exact Ha]. nia.
    - inversion Hr as [|? ? Hx Hr']; subst. cbn [length] in LA.
      destruct (add_exact A B a x Ha Hx) as [E F]; [nia|].
      rewrite E. destruct (IH (A + B)%Z (nadd a x) Hr' F) as [E2 F2]; [nia|].
      split; [exact E2|]. eapply on_mono; [|exact F2]. nia. }
  destruct (G r 0%Z n0 Hr (on_0 0 ltac:(lia))) as [E F]; [nia|].
  split; [exact E|]. eapply on_mono; [|exact F]. nia.
Qed.
Lemma rows_onto_same A B K rows out : mat (on B) rows -> Forall (on A) out -> length rows <= K ->
  (0 <= B)%Z -> (A + Z.of_nat K * B <= N)%Z ->
  same (Forall (on (A + Z.of_nat K * B)))
    (foldM (fun out row => transform2 (fadd rnd) row out out) rows out)
    (foldM (fun out row => transform2 nadd row out out) rows out).
Proof.
  intros Hm Ho HK HB L.
  eapply same_weaken; [|apply (same_foldM (fun k => Forall (on (A + Z.of_nat k * B))) _ _ rows 0)].
  - intros r. cbn [plus]. apply row_mono. nia.
  - eapply row_mono; [|exact Ho]. lia.
  - cbn [plus]. intros i a s E Hs.
    assert (Hi : i < length rows) by (apply nth_error_Some; rewrite E; discriminate).
    apply (plus_same B (A + Z.of_nat i * B)%Z).
    + eapply Forall_forall in Hm; [exact Hm | exact (nth_error_In _ _ E)].
    + exact Hs.
    + eapply row_mono; [|exact Hs]. nia.
    + nia.
    + nia.
Qed.
(** results that overwrite the whole output array *)
Lemma plus_same_full A B C a b out : Forall (on A) a -> Forall (on B) b -> length a = length out ->
  (A + B <= C)%Z -> (C <= N)%Z ->
  same (fun r => Forall (on C) r /\ length r = length out) (plus_into_f rnd a b out) (plus_into a b out).
Proof.
  intros Ha Hb Hl L1 L2. unfold plus_into_f, plus_into, transform2.
  destruct (length a <=? length b) eqn:E; cbn [andb]; [|apply same_none]. apply Nat.leb_le in E.
  replace (length a <=? length out) with true by (symmetry; apply Nat.leb_le; lia).
  rewrite Hl, skipn_all, !app_nil_r.
  assert (G : zip_with (fadd rnd) a b = zip_with nadd a b /\ Forall (on C) (zip_with nadd a b)).
  { clear Hl E. unfold zip_with. revert b Hb. induction a as [|x a IH]; intros b Hb; [repeat constructor|].
    destruct b as [|y b]; [repeat constructor|]. inversion Ha; subst. inversion Hb; subst.
    destruct (IH H2 b H4) as [E F]. destruct (add_exact A B x y H1 H3) as [E1 F1]; [lia|].
    cbn [combine map fst snd]. rewrite E1, E. split; [reflexivity|]. constructor; [|exact F].
    eapply on_mono; [|exact F1]. lia. }
  destruct G as [-> F]. apply same_ret; [reflexivity|]. split; [exact F|].
  unfold zip_with. rewrite map_length, combine_length. lia.
Qed.
Lemma extrinsic_relaxed_full B k m out : mat (on B) m -> Forall (fun r => length r = k) m ->
  length out = length m -> (0 <= B)%Z -> (Z.of_nat k * B <= N)%Z ->
  same (fun r => Forall (on (Z.of_nat k * B)) r /\ length r = length m)
       (extrinsic_relaxed_f rnd m out) (extrinsic_relaxed m out).
Proof.
  intros Hm Hk Hl HB L. unfold extrinsic_relaxed_f, extrinsic_relaxed.
  eapply same_weaken; [|apply (same_for_count
    (fun i o => Forall (on (Z.of_nat k * B)) (firstn i o) /\ length o = length m))].
  - intros o [H1 H2]. rewrite <- H2, firstn_all in H1. auto.
  - split; [constructor | exact Hl].
  - intros i o Hi [H1 H2].
    apply same_bind with (P := fun r => Forall (on B) r /\ length r = k).
    { apply same_get. apply Forall_forall. intros r Hr.
      split; [exact (proj1 (Forall_forall _ _) Hm r Hr) | exact (proj1 (Forall_forall _ _) Hk r Hr)]. }
    intros r [H3 H4]. destruct (accumulate_same B k r H3 ltac:(lia) HB L) as [E F]. rewrite E.
    unfold set. replace (i <? length o) with true by (symmetry; apply Nat.ltb_lt; lia).
    apply same_ret; [reflexivity|]. rewrite upd_length. split; [|exact H2].
    clear - H1 F. revert i H1. induction o as [|x o IH]; intros i H1; [destruct i; constructor|].
    destruct i as [|i]; cbn [upd firstn plus] in *; [repeat constructor; exact F|].
    inversion H1; subst. constructor; [assumption|]. apply IH. assumption.
Qed.
Lemma extrinsic_augmented_full B k K m sub out : mat (on B) m -> Forall (fun r => length r = k) m ->
  mat (on B) sub -> length sub <= K ->
  length out = length m -> (0 <= B)%Z -> (Z.of_nat k * B + Z.of_nat K * B <= N)%Z ->
  same (fun r => Forall (on (Z.of_nat k * B + Z.of_nat K * B)) r /\ length r = length m)
    (extrinsic_augmented_f rnd m sub out) (extrinsic_augmented m sub out).
Proof.
  intros Hm Hk Hs HK Hl HB L. unfold extrinsic_augmented_f, extrinsic_augmented.
  eapply same_bind; [apply (extrinsic_relaxed_full B k); auto; nia|].
  intros o [Ho Hlo]. destruct (rows_onto_same (Z.of_nat k * B) B K sub o Hs Ho HK HB L) as [E F].
  split; [exact E|]. intros r R. split; [apply F; exact R|].
  assert (G : forall rows o r, foldM (fun out row => transform2 nadd row out out) rows o = Some r ->
    length r = length o).
  { clear. induction rows as [|a rows IH]; intros o r; cbn [foldM]; [intros [= ->]; reflexivity|].
    unfold transform2. destruct (length a <=? length o) eqn:E; cbn [andb]; [|discriminate]. cbn [bind].
    intros R. rewrite (IH _ _ R). apply Nat.leb_le in E. rewrite app_length, skipn_length.
    unfold zip_with. rewrite map_length, combine_length. lia. }
  rewrite (G _ _ _ R). exact Hlo.
Qed.
Lemma selection_cost_same C k hd cost : Forall (on C) cost -> (0 <= C)%Z -> length hd <= k ->
  (Z.of_nat k * C <= N)%Z ->
  selection_cost_f rnd hd cost = selection_cost hd cost.
Proof.
  intros Hc HC Hk L. unfold selection_cost_f, selection_cost.
  apply (same_for_count (fun i => on (Z.of_nat i * C))); [apply on_0; lia|].
  intros i a Hi Ha. apply same_bind with (P := fun _ => True); [apply same_any|]. intros h _.
  destruct h.
  - apply same_bind with (P := on C); [apply same_get; exact Hc|]. intros c Hcc.
    destruct (add_exact _ _ a c Ha Hcc) as [E F]; [nia|]. apply same_ret; [exact E|].
    eapply on_mono; [|exact F]. nia.
  - apply same_ret; [reflexivity|]. eapply on_mono; [|exact Ha]. nia.
Qed.
End Grid.
