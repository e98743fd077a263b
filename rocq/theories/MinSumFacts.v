(** * Closed forms of the specification (no code is modelled here). *)
From Verif Require Import Num NumFacts MinSum.
Local Open Scope Qc_scope.

Lemma is_min_of_unique P v w : is_min_of P v -> is_min_of P w -> v = w.
Proof.
  destruct v, w; cbn; try tauto; intros H1 H2; try reflexivity.
  - f_equal. destruct H1 as [Ha Hb], H2 as [Hc Hd].
    specialize (Hb _ Hc); specialize (Hd _ Ha). qlra.
  - exfalso; destruct H1; eapply H2; eauto.
  - exfalso; destruct H2; eapply H1; eauto.
Qed.
Lemma is_min_of_ext P Q v : (forall q, P q <-> Q q) -> is_min_of P v <-> is_min_of Q v.
Proof.
  intros H; destruct v; cbn; try tauto; split.
  - intros [A B]; split; [apply H|]; auto. intros; apply B; apply H; auto.
  - intros [A B]; split; [apply H|]; auto. intros; apply B; apply H; auto.
  - intros A r B; apply (A r), H; auto.
  - intros A r B; apply (A r), H; auto.
Qed.
Lemma minsum_message_unique al m i v w :
  minsum_message al m i v -> minsum_message al m i w -> v = w.
Proof.
  intros (a & b & A & B & ->) (c & d & C & D & ->).
  rewrite (is_min_of_unique _ _ _ A C), (is_min_of_unique _ _ _ B D); auto.
Qed.

(** ** Algebra of minima *)
Lemma is_min_of_notnan P v : is_min_of P v -> notnan v.
Proof. destruct v; cbn; unfold notnan; congruence || tauto. Qed.
Lemma is_min_of_union P Q v w :
  is_min_of P v -> is_min_of Q w -> is_min_of (fun q => P q \/ Q q) (nmin v w).
Proof.
  intros Hv Hw.
  destruct v as [a| | |]; cbn in Hv; try tauto; destruct w as [b| | |]; cbn in Hw; try tauto.
  - destruct (nmin_Fin a b) as (c & -> & Hc & Ha & Hb). destruct Hv as [V1 V2], Hw as [W1 W2].
    cbn. split.
    + destruct Hc as [-> | ->]; auto.
    + intros r [Hr|Hr]; [specialize (V2 _ Hr)|specialize (W2 _ Hr)]; qlra.
  - rewrite nmin_PInf_r by auto with num. cbn. destruct Hv as [V1 V2]. split; auto.
    intros r [Hr|Hr]; auto. exfalso; eapply Hw; eauto.
  - rewrite nmin_PInf_l by auto with num. cbn. destruct Hw as [V1 V2]. split; auto.
    intros r [Hr|Hr]; auto. exfalso; eapply Hv; eauto.
  - cbn. intros r [Hr|Hr]; [eapply Hv|eapply Hw]; eauto.
Qed.
Lemma is_min_of_shift P v c :
  is_min_of P v -> is_min_of (fun q => exists r, P r /\ q = r + c) (nadd v (Fin c)).
Proof.
  destruct v as [a| | |]; cbn; try tauto.
  - intros [A B]; split; eauto. intros r (s & Hs & ->). specialize (B _ Hs). qlra.
  - intros H r (s & Hs & _). eapply H; eauto.
Qed.

(** minimum of a list of messages *)
Fixpoint nmins (l : list num) : num :=
  match l with [] => PInf | a :: l => nmin a (nmins l) end.

Lemma nmins_notnan l : Forall notnan l -> notnan (nmins l).
Proof. induction 1; cbn; auto using nmin_notnan with num. Qed.
Lemma nmins_app l1 l2 : Forall notnan l1 -> Forall notnan l2 ->
  nmins (l1 ++ l2) = nmin (nmins l1) (nmins l2).
Proof.
  intros H1 H2; induction H1; cbn.
  - rewrite nmin_PInf_l; auto using nmins_notnan.
  - rewrite IHForall. apply nmin_assoc; auto using nmins_notnan.
Qed.
Lemma nmins_fold_left l a : notnan a -> Forall notnan l -> fold_left nmin l a = nmin a (nmins l).
Proof.
  intros Ha H; revert a Ha; induction H; intros a Ha; cbn.
  - rewrite nmin_PInf_r; auto.
  - rewrite IHForall by auto using nmin_notnan. rewrite nmin_assoc; auto using nmins_notnan.
Qed.
Lemma nmins_rev l : Forall notnan l -> nmins (rev l) = nmins l.
Proof.
  intros H; induction H; cbn; auto.
  rewrite nmins_app by (auto using Forall_rev). cbn. rewrite IHForall.
  rewrite nmin_PInf_r by auto. apply nmin_comm; auto using nmins_notnan.
Qed.
Lemma Forall_Fin m : Forall notnan (map Fin m).
Proof. induction m; cbn; constructor; auto with num. Qed.
Lemma nmins_is_min m : is_min_of (fun q => In q m) (nmins (map Fin m)).
Proof.
  induction m as [|a m IH]; cbn; [tauto|].
  eapply is_min_of_ext; [|apply is_min_of_union with (P := fun q => q = a); [|exact IH]].
  - intros q; cbn; split; intros [E|E]; auto.
  - cbn; split; auto. intros r ->; qlra.
Qed.
Lemma nmins_Fin m : m <> [] -> exists q, nmins (map Fin m) = Fin q /\ In q m.
Proof.
  intros H. pose proof (nmins_is_min m) as I. destruct (nmins (map Fin m)); cbn in I; try tauto.
  - destruct I; eauto.
  - destruct m; [congruence|]. exfalso; apply (I q); left; auto.
Qed.

(** ** Removing and inserting one position *)
Fixpoint remove_at {A} (i : nat) (l : list A) : list A :=
  match l, i with
  | [], _ => []
  | _ :: l, O => l
  | x :: l, S i => x :: remove_at i l
  end.
Fixpoint insert_at {A} (i : nat) (a : A) (l : list A) : list A :=
  match i, l with
  | O, _ => a :: l
  | S i, x :: l => x :: insert_at i a l
  | S _, [] => [a]
  end.

Lemma remove_at_length {A} i (l : list A) : (i < length l)%nat -> length (remove_at i l) = pred (length l).
Proof.
  revert i; induction l as [|x l IH]; intros [|i] H; cbn in *; try lia.
  rewrite IH by lia. lia.
Qed.
Lemma insert_at_length {A} i (a : A) l : (i <= length l)%nat -> length (insert_at i a l) = S (length l).
Proof.
  revert l; induction i as [|i IH]; intros [|x l] H; cbn in *; try lia. rewrite IH; lia.
Qed.
Lemma insert_remove {A} i (l : list A) a : nth_error l i = Some a -> insert_at i a (remove_at i l) = l.
Proof.
  revert i; induction l as [|x l IH]; intros [|i] H; cbn in *; try congruence. f_equal; auto.
Qed.
Lemma remove_insert {A} i (l : list A) a : (i <= length l)%nat -> remove_at i (insert_at i a l) = l.
Proof.
  revert l; induction i as [|i IH]; intros [|x l] H; cbn in *; try lia; auto. f_equal; apply IH; lia.
Qed.
Lemma nth_error_insert {A} i (l : list A) a : (i <= length l)%nat -> nth_error (insert_at i a l) i = Some a.
Proof.
  revert l; induction i as [|i IH]; intros [|x l] H; cbn in *; try lia; auto. apply IH; lia.
Qed.
Lemma remove_at_app {A} (l1 l2 : list A) a : remove_at (length l1) (l1 ++ a :: l2) = l1 ++ l2.
Proof. induction l1; cbn; congruence. Qed.
Lemma remove_at_split {A} i (l : list A) : remove_at i l = firstn i l ++ skipn (S i) l.
Proof. revert i; induction l as [|x l IH]; intros [|i]; cbn; auto. f_equal; apply IH. Qed.
Lemma remove_at_map {A B} (f : A -> B) i l : remove_at i (map f l) = map f (remove_at i l).
Proof. revert i; induction l; intros [|i]; cbn; auto. f_equal; auto. Qed.

Lemma total_insert i m x b : (i < length m)%nat -> length x = pred (length m) ->
  total m (insert_at i b x) = total (remove_at i m) x + (if b then nth i m 0 else 0).
Proof.
  revert m x; induction i as [|i IH]; intros [|a m] x H L; cbn in *; try lia.
  - destruct b; qlra.
  - destruct x as [|y x]; cbn in *; [lia|]. rewrite IH by lia. destruct y, b; qlra.
Qed.
Lemma rest_insert i m x b : (i < length m)%nat -> length x = pred (length m) ->
  rest i m (insert_at i b x) = total (remove_at i m) x.
Proof.
  intros. unfold rest. rewrite total_insert by auto.
  rewrite (nth_error_nth _ _ false (nth_error_insert i x b ltac:(lia))).
  destruct b; qlra.
Qed.
Lemma ones_cons b x : ones (b :: x) = ((if b then 1 else 0) + ones x)%nat.
Proof. unfold ones; cbn. destruct b; cbn; auto. Qed.
Lemma ones_insert i x b : (i <= length x)%nat -> ones (insert_at i b x) = ((if b then 1 else 0) + ones x)%nat.
Proof.
  revert x; induction i as [|i IH]; intros [|y x] H; cbn [insert_at length] in *; try lia;
    rewrite ?ones_cons; auto.
  rewrite IH by lia. lia.
Qed.

(** minimum over configurations of the other variables *)
Definition cmin (allowed : list bool -> Prop) (m : list Qc) (v : num) : Prop :=
  is_min_of (fun q => exists x, length x = length m /\ allowed x /\ q = total m x) v.

Lemma best_iff al al' m i b v : (i < length m)%nat ->
  (forall y, length y = pred (length m) -> al (insert_at i b y) <-> al' y) ->
  best al m i b v <-> cmin al' (remove_at i m) v.
Proof.
  intros Hi H. unfold best, cmin. apply is_min_of_ext. intros q; split.
  - intros (x & L & A & N & ->).
    assert (Ly : length (remove_at i x) = pred (length m)) by (rewrite remove_at_length; lia).
    pose proof (insert_remove i x b N) as E. set (y := remove_at i x) in *. clearbody y. subst x.
    exists y. repeat split.
    + rewrite remove_at_length; lia.
    + apply H; auto.
    + rewrite rest_insert; auto.
  - intros (y & L & A & ->). rewrite remove_at_length in L by auto.
    exists (insert_at i b y). repeat split.
    + rewrite insert_at_length; lia.
    + apply H; auto.
    + apply nth_error_insert; lia.
    + rewrite rest_insert; auto.
Qed.

(** ** Minima by recursion over the variables *)
Lemma cmin_nil (al : list bool -> Prop) : al [] -> cmin al [] (Fin 0).
Proof.
  intros H; cbn; split.
  - exists []; auto.
  - intros r (x & L & _ & ->). destruct x; cbn in *; try lia. qlra.
Qed.
Lemma cmin_nil_none (al : list bool -> Prop) : ~ al [] -> cmin al [] PInf.
Proof. intros H r (x & L & A & _). destruct x; cbn in L; [auto|lia]. Qed.
Lemma cmin_cons al a m v1 v0 :
  cmin (fun x => al (true :: x)) m v1 -> cmin (fun x => al (false :: x)) m v0 ->
  cmin al (a :: m) (nmin v0 (nadd v1 (Fin a))).
Proof.
  intros H1 H0. unfold cmin.
  eapply is_min_of_ext; [|apply is_min_of_union; [exact H0|apply is_min_of_shift; exact H1]].
  intros q; split.
  - intros (x & L & A & ->). destruct x as [|[|] x]; cbn in L; [lia| |].
    + right. exists (total m x). split; [exists x; auto|cbn; qlra].
    + left. exists x. repeat split; auto. cbn; qlra.
  - intros [(x & L & A & ->)|(r & (x & L & A & ->) & ->)].
    + exists (false :: x); repeat split; cbn; auto. qlra.
    + exists (true :: x); repeat split; cbn; auto. qlra.
Qed.
Lemma cmin_ext (al al' : list bool -> Prop) m v : (forall x, length x = length m -> al x <-> al' x) -> cmin al m v -> cmin al' m v.
Proof.
  intros H. apply is_min_of_ext. intros q; split; intros (x & L & A & ->); exists x;
    repeat split; auto; apply H; auto.
Qed.
Lemma cmin_unique al m v w : cmin al m v -> cmin al m w -> v = w.
Proof. apply is_min_of_unique. Qed.

Definition none (x : list bool) : Prop := ones x = 0%nat.
Definition any (x : list bool) : Prop := True.

Lemma cmin_impossible (al : list bool -> Prop) m : (forall x, length x = length m -> ~ al x) -> cmin al m PInf.
Proof. intros H r (x & L & A & _). eapply H; eauto. Qed.

Lemma cmin_none m : cmin none m (Fin 0).
Proof.
  induction m as [|a m IH]; [apply cmin_nil; reflexivity|].
  replace (Fin 0) with (nmin (Fin 0) (nadd PInf (Fin a))) by (apply nmin_PInf_r; auto with num).
  apply cmin_cons.
  - apply cmin_impossible. intros x _. unfold none. rewrite ones_cons; lia.
  - eapply cmin_ext; [|exact IH]. intros x _; unfold none; rewrite ones_cons; reflexivity.
Qed.
Lemma cmin_exactly_one m : cmin exactly_one m (nmins (map Fin m)).
Proof.
  induction m as [|a m IH]; [apply cmin_nil_none; unfold exactly_one; cbn; lia|].
  cbn [map nmins]. rewrite nmin_comm by (auto using nmins_notnan, Forall_Fin with num).
  replace (Fin a) with (nadd (Fin 0) (Fin a)) by (cbn; f_equal; qlra).
  apply cmin_cons.
  - eapply cmin_ext; [|apply cmin_none].
    intros x _; unfold none, exactly_one; rewrite ones_cons; lia.
  - eapply cmin_ext; [|exact IH]. intros x _; unfold exactly_one; rewrite ones_cons; reflexivity.
Qed.
Lemma cmin_at_most_one m : cmin at_most_one m (nmin (nmins (map Fin m)) n0).
Proof.
  unfold cmin. eapply is_min_of_ext; [|apply is_min_of_union; [apply cmin_exactly_one|apply cmin_none]].
  intros q; split.
  - intros (x & L & A & ->). unfold at_most_one in A.
    destruct (ones x) as [|[|k]] eqn:E; [right|left|lia]; exists x; (split; [exact L|split; [exact E|reflexivity]]).
  - intros [(x & L & A & ->)|(x & L & A & ->)]; exists x; repeat split; auto;
      unfold at_most_one; rewrite A; lia.
Qed.

(** sum of the beneficial messages *)
Fixpoint negsum (m : list Qc) : Qc :=
  match m with [] => 0 | a :: m => (if qltb a 0 then a else 0) + negsum m end.
Lemma nmin_add0 s a : nmin (Fin s) (nadd (Fin s) (Fin a)) = Fin ((if qltb a 0 then a else 0) + s).
Proof.
  unfold nmin; cbn. destruct (qltb_spec (s + a) s), (qltb_spec a 0); f_equal; try qlra;
    exfalso; qlra.
Qed.
Lemma cmin_any m : cmin any m (Fin (negsum m)).
Proof.
  induction m as [|a m IH]; [apply cmin_nil; exact I|].
  cbn [negsum]. rewrite <- nmin_add0.
  apply cmin_cons; (eapply cmin_ext; [|exact IH]); unfold any; tauto.
Qed.
(** [nmax 0] of the smallest message added to the unconstrained optimum *)
Lemma cmin_at_least_one m : cmin at_least_one m (nadd (nmax (nmins (map Fin m)) n0) (Fin (negsum m))).
Proof.
  induction m as [|a m IH]; [apply cmin_nil_none; unfold at_least_one; cbn; lia|].
  replace (nadd (nmax (nmins (map Fin (a :: m))) n0) (Fin (negsum (a :: m))))
    with (nmin (nadd (nmax (nmins (map Fin m)) n0) (Fin (negsum m))) (nadd (Fin (negsum m)) (Fin a))).
  - apply cmin_cons.
    + eapply cmin_ext; [|apply cmin_any]. intros x _. unfold any, at_least_one; rewrite ones_cons.
      split; auto. intros; lia.
    + eapply cmin_ext; [|exact IH]. intros x _. unfold at_least_one; rewrite ones_cons. reflexivity.
  - cbn [map nmins negsum].
    pose proof (nmins_is_min m) as M.
    destruct (nmins (map Fin m)) as [b| | |] eqn:E; cbn in M; try tauto.
    + unfold nmax, nmin; cbn.
      destruct (qltb_spec a 0); destruct (qltb_spec b 0); destruct (qltb_spec b a); cbn;
        repeat (match goal with |- context [qltb ?u ?v] => destruct (qltb_spec u v) end; cbn);
        try (f_equal; qlra); exfalso; qlra.
    + unfold nmax, nmin; cbn.
      destruct (qltb_spec a 0); cbn; f_equal; try qlra.
Qed.

(** ** Closed form of each message *)
Lemma nsub_nmin_0 v : nsub n0 v = nopp v.
Proof. unfold nsub. apply nadd_0_l. Qed.

Lemma exactly_one_message m i : (i < length m)%nat ->
  minsum_message exactly_one m i (nopp (nmins (map Fin (remove_at i m)))).
Proof.
  intros Hi. exists (Fin 0), (nmins (map Fin (remove_at i m))). split; [|split].
  - eapply best_iff; auto; [|apply cmin_none].
    intros y L. unfold exactly_one, none. rewrite ones_insert by lia. lia.
  - eapply best_iff; auto; [|apply cmin_exactly_one].
    intros y L. unfold exactly_one. rewrite ones_insert by lia. lia.
  - symmetry; apply nsub_nmin_0.
Qed.
Lemma at_most_one_message m i : (i < length m)%nat ->
  minsum_message at_most_one m i (nopp (nmin (nmins (map Fin (remove_at i m))) n0)).
Proof.
  intros Hi. exists (Fin 0), (nmin (nmins (map Fin (remove_at i m))) n0). split; [|split].
  - eapply best_iff; auto; [|apply cmin_none].
    intros y L. unfold at_most_one, none. rewrite ones_insert by lia. lia.
  - eapply best_iff; auto; [|apply cmin_at_most_one].
    intros y L. unfold at_most_one. rewrite ones_insert by lia. lia.
  - symmetry; apply nsub_nmin_0.
Qed.
Lemma at_least_one_message m i : (i < length m)%nat ->
  minsum_message at_least_one m i (nmin (nopp (nmins (map Fin (remove_at i m)))) n0).
Proof.
  intros Hi. set (m' := remove_at i m).
  exists (Fin (negsum m')), (nadd (nmax (nmins (map Fin m')) n0) (Fin (negsum m'))). split; [|split].
  - eapply best_iff; auto; [|apply cmin_any].
    intros y L. unfold at_least_one, any. rewrite ones_insert by lia. split; auto; lia.
  - eapply best_iff; auto; [|apply cmin_at_least_one].
    intros y L. unfold at_least_one. rewrite ones_insert by lia. lia.
  - pose proof (nmins_is_min m') as M.
    destruct (nmins (map Fin m')) as [b| | |] eqn:E; cbn in M; try tauto.
    + unfold nsub, nmax, nmin, n0; cbn [nlt nadd nopp].
      destruct (qltb_spec b 0), (qltb_spec 0 (- b)); cbn [nadd nopp]; f_equal; try qlra; exfalso; qlra.
Qed.
