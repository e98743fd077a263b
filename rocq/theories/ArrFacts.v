(** * Facts about checked arrays and loops (no code is modelled here). *)
From Verif Require Import Num Arr.
From Verif Require Export Spec.
Local Open Scope nat_scope.

Lemma bind_Some {A B} (o : option A) (f : A -> option B) b :
  bind o f = Some b <-> exists a, o = Some a /\ f a = Some b.
Proof.
  destruct o as [a|]; cbn; split.
  - intros E; exists a; auto.
  - intros (a' & E & E'); congruence.
  - discriminate.
  - intros (a' & E & E'); discriminate.
Qed.

Lemma get_lt {A} (l : list A) i : i < length l -> exists a, get l i = Some a.
Proof.
  unfold get; intros H. destruct (nth_error l i) eqn:E; eauto.
  apply nth_error_None in E; lia.
Qed.
Lemma get_Some_lt {A} (l : list A) i a : get l i = Some a -> i < length l.
Proof. unfold get; intros H; apply nth_error_Some; congruence. Qed.

Lemma upd_length {A} (l : list A) i v : length (upd l i v) = length l.
Proof. revert i; induction l as [|x l IH]; intros [|i]; cbn; auto. Qed.
Lemma get_upd_eq {A} (l : list A) i v : i < length l -> get (upd l i v) i = Some v.
Proof.
  unfold get; revert i; induction l as [|x l IH]; intros [|i] H; cbn in *; try lia; auto.
  apply IH; lia.
Qed.
Lemma get_upd_ne {A} (l : list A) i j v : i <> j -> get (upd l i v) j = get l j.
Proof.
  unfold get; revert i j; induction l as [|x l IH]; intros [|i] [|j] H; cbn; auto; try lia.
Qed.
Lemma get_upd {A} (l : list A) i j v : i < length l ->
  get (upd l i v) j = if Nat.eqb i j then Some v else get l j.
Proof.
  intros H. destruct (Nat.eqb_spec i j); [subst; apply get_upd_eq; auto|apply get_upd_ne; auto].
Qed.
Lemma set_lt {A} (l : list A) i v : i < length l -> set l i v = Some (upd l i v).
Proof. unfold set; intros H; apply Nat.ltb_lt in H; rewrite H; auto. Qed.
Lemma set_Some {A} (l l' : list A) i v : set l i v = Some l' -> i < length l /\ l' = upd l i v.
Proof. unfold set; destruct (Nat.ltb_spec i (length l)); intros E; inversion E; auto. Qed.

Lemma list_ext_get {A} (l l' : list A) :
  length l = length l' -> (forall i, i < length l -> get l i = get l' i) -> l = l'.
Proof.
  unfold get; revert l'; induction l as [|x l IH]; intros [|y l'] HL H; cbn in *; try lia; auto.
  f_equal.
  - specialize (H 0 ltac:(lia)); cbn in H; congruence.
  - apply IH; [lia|]. intros i Hi; apply (H (S i)); lia.
Qed.

(** ** Matrices *)
Lemma shape_row {A} n k (m : list (list A)) i r : shape n k m -> get m i = Some r -> length r = k.
Proof.
  intros [_ HF] E. rewrite Forall_forall in HF. apply HF. eapply nth_error_In; eauto.
Qed.
Lemma get2_lt {A} n k (m : list (list A)) i j : shape n k m -> i < n -> j < k ->
  exists a, get2 m i j = Some a.
Proof.
  intros Hs Hi Hj. destruct (get_lt m i) as [r Hr]; [destruct Hs; lia|].
  unfold get2; rewrite Hr; cbn. apply get_lt. rewrite (shape_row _ _ _ _ _ Hs Hr); auto.
Qed.
Lemma get2_Some_lt {A} n k (m : list (list A)) i j a :
  shape n k m -> get2 m i j = Some a -> i < n /\ j < k.
Proof.
  intros Hs H. unfold get2 in H. apply bind_Some in H as (r & Hr & Hj).
  pose proof (get_Some_lt _ _ _ Hr) as L. pose proof (get_Some_lt _ _ _ Hj) as Lj.
  rewrite (shape_row _ _ _ _ _ Hs Hr) in Lj. destruct Hs; subst; auto.
Qed.

Definition upd2 {A} (m : list (list A)) i j (v : A) : list (list A) :=
  match get m i with Some r => upd m i (upd r j v) | None => m end.

Lemma Forall_upd {A} (P : A -> Prop) l i v : Forall P l -> P v -> Forall P (upd l i v).
Proof.
  intros HF Hv; revert i; induction HF; intros [|i]; cbn; auto.
Qed.
Lemma shape_upd2 {A} n k (m : list (list A)) i j v : shape n k m -> shape n k (upd2 m i j v).
Proof.
  intros [H1 H2]. unfold upd2; destruct (get m i) as [r|] eqn:E; [|split; auto].
  split; [rewrite upd_length; auto|]. apply Forall_upd; auto.
  rewrite upd_length. apply (shape_row n k m i r); [split; auto|auto].
Qed.
Lemma set2_lt {A} n k (m : list (list A)) i j v : shape n k m -> i < n -> j < k ->
  set2 m i j v = Some (upd2 m i j v).
Proof.
  intros Hs Hi Hj. destruct (get_lt m i) as [r Hr]; [destruct Hs; lia|].
  unfold set2, upd2; rewrite Hr; cbn. rewrite set_lt by (rewrite (shape_row _ _ _ _ _ Hs Hr); auto).
  cbn. apply set_lt. destruct Hs; lia.
Qed.
Lemma get2_upd2 {A} n k (m : list (list A)) i j i' j' v : shape n k m -> i < n -> j < k ->
  get2 (upd2 m i j v) i' j' = if (Nat.eqb i i' && Nat.eqb j j')%bool then Some v else get2 m i' j'.
Proof.
  intros Hs Hi Hj. destruct (get_lt m i) as [r Hr]; [destruct Hs; lia|].
  pose proof (shape_row _ _ _ _ _ Hs Hr) as HL.
  unfold upd2, get2; rewrite Hr. rewrite get_upd by (destruct Hs; lia).
  destruct (Nat.eqb_spec i i'); cbn; auto. subst i'. rewrite Hr; cbn.
  rewrite get_upd by lia. auto.
Qed.
Lemma shape_ext {A} n k (m m' : list (list A)) : shape n k m -> shape n k m' ->
  (forall i j, i < n -> j < k -> get2 m i j = get2 m' i j) -> m = m'.
Proof.
  intros Hs Hs' H. apply list_ext_get; [destruct Hs, Hs'; congruence|].
  intros i Hi. assert (i < n) by (destruct Hs; lia).
  destruct (get_lt m i Hi) as [r Hr]. destruct (get_lt m' i) as [r' Hr']; [destruct Hs'; lia|].
  rewrite Hr, Hr'. f_equal. apply list_ext_get.
  - rewrite (shape_row _ _ _ _ _ Hs Hr), (shape_row _ _ _ _ _ Hs' Hr'); auto.
  - intros j Hj. rewrite (shape_row _ _ _ _ _ Hs Hr) in Hj.
    specialize (H i j ltac:(auto) Hj). unfold get2 in H. rewrite Hr, Hr' in H. auto.
Qed.
Lemma shape_repeat {A} n k (v : A) : shape n k (repeat (repeat v k) n).
Proof.
  split; [apply repeat_length|]. apply Forall_forall. intros r Hr.
  apply repeat_spec in Hr; subst. apply repeat_length.
Qed.
Lemma get_repeat {A} (v : A) n i : i < n -> get (repeat v n) i = Some v.
Proof.
  unfold get; revert i; induction n; intros [|i] H; cbn; try lia; auto. apply IHn; lia.
Qed.
Lemma get2_repeat {A} (v : A) n k i j : i < n -> j < k -> get2 (repeat (repeat v k) n) i j = Some v.
Proof. intros; unfold get2. rewrite get_repeat by auto; cbn. apply get_repeat; auto. Qed.

(** ** Loops *)
Lemma foldM_app {S A} (body : S -> A -> option S) l1 l2 s :
  foldM body (l1 ++ l2) s = (s' <- foldM body l1 s ;; foldM body l2 s').
Proof.
  revert s; induction l1 as [|a l1 IH]; intros s; cbn; auto.
  destruct (body s a); cbn; auto.
Qed.

Lemma foldM_ind {S A} (body : S -> A -> option S) (P : list A -> S -> Prop) l s :
  P [] s ->
  (forall done a rest s, l = done ++ a :: rest -> P done s ->
     exists s', body s a = Some s' /\ P (done ++ [a]) s') ->
  exists s', foldM body l s = Some s' /\ P l s'.
Proof.
  intros H0 Hstep.
  assert (G : forall rest done s, l = done ++ rest -> P done s ->
            exists s', foldM body rest s = Some s' /\ P l s').
  { induction rest as [|a rest IH]; intros done st El Hp; cbn.
    - rewrite app_nil_r in El; subst; eauto.
    - destruct (Hstep done a rest st El Hp) as (s1 & E1 & P1). rewrite E1; cbn.
      apply (IH (done ++ [a])); auto. rewrite <- app_assoc; auto. }
  apply (G l []); auto.
Qed.

Lemma for_up_ind {S} lo hi (s : S) body (P : nat -> S -> Prop) :
  lo <= hi -> P lo s ->
  (forall i s, lo <= i < hi -> P i s -> exists s', body s i = Some s' /\ P (i + 1) s') ->
  exists s', for_up lo hi s body = Some s' /\ P hi s'.
Proof.
  unfold for_up. intros Hle H0 Hstep.
  remember (hi - lo) as n eqn:En. revert lo s En Hle H0 Hstep.
  induction n as [|n IH]; intros lo s En Hle H0 Hstep; cbn.
  - assert (lo = hi) by lia; subst; eauto.
  - destruct (Hstep lo s ltac:(lia) H0) as (s1 & E1 & P1). rewrite E1; cbn.
    replace (Datatypes.S lo) with (lo + 1) by lia. apply IH; try lia; auto. intros; apply Hstep; auto; lia.
Qed.

Lemma for_up_nil {S} lo hi (s : S) body : hi <= lo -> for_up lo hi s body = Some s.
Proof. intros; unfold for_up. replace (hi - lo) with 0 by lia; auto. Qed.

Lemma for_down_ind {S} lo hi (s : S) body (P : nat -> S -> Prop) :
  lo <= hi -> P hi s ->
  (forall i s, lo <= i < hi -> P (i + 1) s -> exists s', body s i = Some s' /\ P i s') ->
  exists s', for_down lo hi s body = Some s' /\ P lo s'.
Proof.
  unfold for_down. intros Hle H0 Hstep.
  remember (hi - lo) as n eqn:En. revert hi s En Hle H0 Hstep.
  induction n as [|n IH]; intros hi s En Hle H0 Hstep.
  - cbn. assert (lo = hi) by lia; subst; eauto.
  - rewrite seq_S, rev_app_distr; cbn.
    destruct (Hstep (lo + n) s ltac:(lia)) as (s1 & E1 & P1).
    { replace (lo + n + 1) with hi by lia; auto. }
    rewrite E1; cbn. apply (IH (lo + n)); try lia; auto. intros; apply Hstep; auto; lia.
Qed.
Lemma for_down_nil {S} lo hi (s : S) body : hi <= lo -> for_down lo hi s body = Some s.
Proof. intros; unfold for_down. replace (hi - lo) with 0 by lia; auto. Qed.

Lemma mapM_Some {A B} (f : A -> option B) (g : A -> B) l :
  (forall a, In a l -> f a = Some (g a)) -> mapM f l = Some (map g l).
Proof.
  induction l as [|a l IH]; intros H; cbn; auto.
  rewrite H by (left; auto); cbn. rewrite IH by (intros; apply H; right; auto); auto.
Qed.
Lemma mapM_length {A B} (f : A -> option B) l r : mapM f l = Some r -> length r = length l.
Proof.
  revert r; induction l as [|a l IH]; cbn; intros r H.
  - injection H as <-; auto.
  - apply bind_Some in H as (b & _ & H). apply bind_Some in H as (bs & Hb & H).
    injection H as <-; cbn. f_equal; auto.
Qed.

Lemma zip_with_length {A B C} (f : A -> B -> C) a b :
  length (zip_with f a b) = Nat.min (length a) (length b).
Proof. unfold zip_with; rewrite map_length, combine_length; auto. Qed.
Lemma get_zip_with {A B C} (f : A -> B -> C) a b i x y :
  get a i = Some x -> get b i = Some y -> get (zip_with f a b) i = Some (f x y).
Proof.
  unfold get, zip_with. revert b i; induction a as [|p a IH]; intros [|q b] [|i]; cbn; try congruence.
  apply IH.
Qed.
Lemma transform2_same {A B C} (f : A -> B -> C) a b out :
  length a = length b -> length a = length out -> transform2 f a b out = Some (zip_with f a b).
Proof.
  intros H1 H2. unfold transform2. rewrite <- H1, <- H2, Nat.leb_refl; cbn [andb].
  rewrite skipn_all2 by lia. rewrite app_nil_r; auto.
Qed.
Lemma copy_into_same {A} (a out : list A) : length a = length out -> copy_into a out = Some a.
Proof.
  intros H. unfold copy_into. rewrite <- H, Nat.leb_refl, skipn_all2, app_nil_r by lia; auto.
Qed.
Lemma get_app1 {A} (l l' : list A) i : i < length l -> get (l ++ l') i = get l i.
Proof. apply nth_error_app1. Qed.
Lemma get_app2 {A} (l l' : list A) i : length l <= i -> get (l ++ l') i = get l' (i - length l).
Proof. apply nth_error_app2. Qed.
Lemma get_map {A B} (f : A -> B) l i : get (map f l) i = option_map f (get l i).
Proof. unfold get. revert i; induction l; intros [|i]; cbn; auto. Qed.
