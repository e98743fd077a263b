(** * Facts about [num] (no code is modelled here). *)
From Verif Require Import Num.
From Coq Require Import Lqa.
Local Open Scope Qc_scope.

(** ** Linear arithmetic over [Qc] *)
Lemma Qc_eq_this x y : x = y <-> (this x == this y)%Q.
Proof. split; [intros ->; reflexivity | apply Qc_is_canon]. Qed.

Lemma this_add x y : (this (x + y) == this x + this y)%Q.
Proof. unfold Qcplus, Q2Qc; cbn [this]; apply Qred_correct. Qed.
Lemma this_opp x : (this (- x) == - this x)%Q.
Proof. unfold Qcopp, Q2Qc; cbn [this]; apply Qred_correct. Qed.
Lemma this_sub x y : (this (x - y) == this x - this y)%Q.
Proof. unfold Qcminus; rewrite this_add, this_opp; reflexivity. Qed.
Lemma this_mul x y : (this (x * y) == this x * this y)%Q.
Proof. unfold Qcmult, Q2Qc; cbn [this]; apply Qred_correct. Qed.
Lemma this_0 : (this 0 == 0)%Q.
Proof. reflexivity. Qed.
Lemma this_1 : (this 1 == 1)%Q.
Proof. reflexivity. Qed.

Ltac qc_prep :=
  repeat match goal with
         | H : @eq Qc _ _ |- _ => apply Qc_eq_this in H
         | H : ~ @eq Qc _ _ |- _ => rewrite Qc_eq_this in H
         | H : @eq Qc _ _ -> _ |- _ => clear H
         end;
  unfold Qcle, Qclt in *;
  try rewrite Qc_eq_this;
  repeat (rewrite ?this_add, ?this_opp, ?this_sub, ?this_mul in * );
  try change (this 0) with 0%Q in *; try change (this 1) with 1%Q in *.

(** [qlra]: linear arithmetic on [Qc] hypotheses and goal. *)
Ltac qlra :=
  intros;
  match goal with
  | |- ~ _ => intro; exfalso; qc_prep; lra
  | |- @eq Qc _ _ => qc_prep; lra
  | |- _ => qc_prep; lra
  end.

Lemma qltb_true a b : qltb a b = true <-> a < b.
Proof.
  unfold qltb, Qclt. destruct (Qle_bool (this b) (this a)) eqn:E; cbn.
  - apply Qle_bool_iff in E. split; [discriminate|intros; exfalso; lra].
  - split; auto. intros _. destruct (Qlt_le_dec (this a) (this b)) as [|n]; auto.
    apply Qle_bool_iff in n. congruence.
Qed.
Lemma qltb_false a b : qltb a b = false <-> b <= a.
Proof.
  unfold qltb, Qcle. destruct (Qle_bool (this b) (this a)) eqn:E; cbn.
  - apply Qle_bool_iff in E. tauto.
  - split; [discriminate|]. intros n. apply Qle_bool_iff in n. congruence.
Qed.
Lemma qltb_spec a b : BoolSpec (a < b) (b <= a) (qltb a b).
Proof.
  destruct (qltb a b) eqn:E; constructor; [apply qltb_true|apply qltb_false]; auto.
Qed.

(** ** Order on non-NaN numbers *)
Definition nle (a b : num) : Prop :=
  match a, b with
  | NaN, _ | _, NaN => False
  | NInf, _ => True
  | _, PInf => True
  | Fin x, Fin y => x <= y
  | _, _ => False
  end.

Definition notnan (a : num) : Prop := a <> NaN.

Lemma nle_refl a : notnan a -> nle a a.
Proof. destruct a; cbn; unfold notnan; try tauto; try qlra; congruence. Qed.
Lemma nle_trans a b c : nle a b -> nle b c -> nle a c.
Proof. destruct a, b, c; cbn; try tauto; qlra. Qed.
Lemma nle_antisym a b : nle a b -> nle b a -> a = b.
Proof. destruct a, b; cbn; try tauto; intros; f_equal; qlra. Qed.
Lemma nle_total a b : notnan a -> notnan b -> nle a b \/ nle b a.
Proof.
  destruct a, b; unfold notnan; cbn; try tauto; try congruence.
  intros _ _. destruct (qltb_spec q q0); [left|right]; qlra.
Qed.
Lemma nle_notnan_l a b : nle a b -> notnan a.
Proof. destruct a, b; cbn; unfold notnan; congruence || tauto. Qed.
Lemma nle_notnan_r a b : nle a b -> notnan b.
Proof. destruct a, b; cbn; unfold notnan; congruence || tauto. Qed.
Lemma nle_PInf a : notnan a -> nle a PInf.
Proof. destruct a; cbn; unfold notnan; congruence || tauto. Qed.
Lemma nle_Fin x y : nle (Fin x) (Fin y) <-> x <= y.
Proof. reflexivity. Qed.
Lemma Fin_notnan x : notnan (Fin x). Proof. discriminate. Qed.
Lemma PInf_notnan : notnan PInf. Proof. discriminate. Qed.
Lemma NInf_notnan : notnan NInf. Proof. discriminate. Qed.
Global Hint Resolve Fin_notnan PInf_notnan NInf_notnan : num.

Lemma nlt_true a b : nlt a b = true -> nle a b.
Proof. destruct a, b; cbn; try congruence; try tauto. rewrite qltb_true. qlra. Qed.
Lemma nlt_false a b : notnan a -> notnan b -> nlt a b = false -> nle b a.
Proof. destruct a, b; unfold notnan; cbn; try congruence; try tauto. rewrite qltb_false. qlra. Qed.
Lemma nlt_irrefl a : nlt a a = false.
Proof. destruct a; cbn; auto. apply qltb_false. qlra. Qed.
Lemma nle_nlt a b : nle a b -> nlt b a = false.
Proof. destruct a, b; cbn; try tauto; auto. intros; apply qltb_false; auto. Qed.
Lemma nlt_iff a b : notnan a -> notnan b -> nlt a b = true <-> (nle a b /\ a <> b).
Proof.
  intros Ha Hb; split.
  - intros H; split; [apply nlt_true; auto|intros ->; rewrite nlt_irrefl in H; discriminate].
  - intros [H Hn]. destruct (nlt a b) eqn:E; auto.
    apply nlt_false in E; auto. exfalso; apply Hn; apply nle_antisym; auto.
Qed.

(** ** [nmin] *)
Lemma nmin_cases a b : nmin a b = a \/ nmin a b = b.
Proof. unfold nmin; destruct (nlt b a); auto. Qed.
Lemma nmin_notnan a b : notnan a -> notnan b -> notnan (nmin a b).
Proof. intros; destruct (nmin_cases a b) as [-> | ->]; auto. Qed.
Lemma nmin_le_l a b : notnan a -> notnan b -> nle (nmin a b) a.
Proof.
  intros; unfold nmin; destruct (nlt b a) eqn:E; [apply nlt_true; auto|apply nle_refl; auto].
Qed.
Lemma nmin_le_r a b : notnan a -> notnan b -> nle (nmin a b) b.
Proof.
  intros; unfold nmin; destruct (nlt b a) eqn:E; [apply nle_refl; auto|apply nlt_false; auto].
Qed.
Lemma nmin_glb a b c : nle c a -> nle c b -> nle c (nmin a b).
Proof. intros; destruct (nmin_cases a b) as [-> | ->]; auto. Qed.
Lemma nmin_unique a b v : notnan a -> notnan b ->
  nle v a -> nle v b -> (v = a \/ v = b) -> nmin a b = v.
Proof.
  intros. apply nle_antisym.
  - destruct H3 as [-> | ->]; [apply nmin_le_l|apply nmin_le_r]; auto.
  - apply nmin_glb; auto.
Qed.
Lemma nmin_comm a b : notnan a -> notnan b -> nmin a b = nmin b a.
Proof.
  intros. apply nmin_unique; auto using nmin_le_l, nmin_le_r.
  destruct (nmin_cases b a) as [-> | ->]; auto.
Qed.
Lemma nmin_PInf_r a : notnan a -> nmin a PInf = a.
Proof. intros; apply nmin_unique; auto using nle_refl, nle_PInf with num. Qed.
Lemma nmin_PInf_l a : notnan a -> nmin PInf a = a.
Proof. intros; apply nmin_unique; auto using nle_refl, nle_PInf with num. Qed.
Lemma nmin_idem a : nmin a a = a.
Proof. unfold nmin; destruct (nlt a a); auto. Qed.
Lemma nmin_l a b : nle a b -> nmin a b = a.
Proof. intros; unfold nmin. rewrite nle_nlt; auto. Qed.
Lemma nmin_r a b : nle b a -> nmin a b = b.
Proof.
  intros. apply nmin_unique; eauto using nle_refl, nle_notnan_l, nle_notnan_r.
Qed.
Lemma nmin_assoc a b c : notnan a -> notnan b -> notnan c ->
  nmin a (nmin b c) = nmin (nmin a b) c.
Proof.
  intros Ha Hb Hc.
  destruct (nle_total a b Ha Hb) as [Hab|Hab]; [rewrite (nmin_l a b) by auto|rewrite (nmin_r a b) by auto].
  - destruct (nle_total b c Hb Hc) as [Hbc|Hbc]; [rewrite (nmin_l b c) by auto|rewrite (nmin_r b c) by auto]; auto.
    rewrite !nmin_l; eauto using nle_trans.
  - apply nmin_r. eapply nle_trans; [apply nmin_le_l|]; auto.
Qed.
Lemma nmin_Fin x y : exists z, nmin (Fin x) (Fin y) = Fin z /\ (z = x \/ z = y) /\ z <= x /\ z <= y.
Proof.
  unfold nmin. cbn. destruct (qltb_spec y x).
  - exists y; repeat split; auto; qlra.
  - exists x; repeat split; auto; qlra.
Qed.

(** ** [nadd], [nopp], [nsub] on finite values *)
Lemma nadd_Fin x y : nadd (Fin x) (Fin y) = Fin (x + y). Proof. reflexivity. Qed.
Lemma nsub_Fin x y : nsub (Fin x) (Fin y) = Fin (x - y). Proof. reflexivity. Qed.
Lemma nadd_comm a b : nadd a b = nadd b a.
Proof. destruct a, b; cbn; auto; f_equal; ring. Qed.
Lemma nadd_0_l a : nadd n0 a = a.
Proof. destruct a; cbn; auto; f_equal; ring. Qed.
Lemma nadd_0_r a : nadd a n0 = a.
Proof. rewrite nadd_comm; apply nadd_0_l. Qed.
Lemma nopp_invol a : nopp (nopp a) = a.
Proof. destruct a; cbn; auto; f_equal; ring. Qed.
Lemma nadd_Fin_assoc a b x : nadd (nadd a b) (Fin x) = nadd a (nadd b (Fin x)).
Proof. destruct a, b; cbn; auto; f_equal; ring. Qed.
Lemma nadd_le_mono_Fin a b x : nle a b -> nle (nadd a (Fin x)) (nadd b (Fin x)).
Proof. destruct a, b; cbn; try tauto. qlra. Qed.
Lemma nmin_nadd_Fin a b x : notnan a -> notnan b ->
  nadd (nmin a b) (Fin x) = nmin (nadd a (Fin x)) (nadd b (Fin x)).
Proof.
  intros Ha Hb. destruct (nle_total a b Ha Hb) as [H|H].
  - rewrite !nmin_l; auto using nadd_le_mono_Fin.
  - rewrite !nmin_r; auto using nadd_le_mono_Fin.
Qed.
Lemma notnan_nadd_Fin a x : notnan a -> notnan (nadd a (Fin x)).
Proof. destruct a; unfold notnan; cbn; congruence. Qed.
Lemma nopp_le a b : nle a b -> nle (nopp b) (nopp a).
Proof. destruct a, b; cbn; try tauto. qlra. Qed.
