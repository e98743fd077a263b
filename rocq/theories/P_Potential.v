(** * Potentials of a graph without gainful cycles. *)
From Verif Require Import Num NumFacts Arr ArrFacts Spec SpecGraph SpecCover P_Assign.
Local Open Scope nat_scope.

Section Potential.
Variables (n : nat) (arc : nat -> nat -> bool) (g : nat -> nat -> Qc) (G : Qc).
Hypothesis Harc : forall i l, arc i l = true -> i < n /\ l < n.
Hypothesis Hcyc : forall i t, NoDup (i :: t) ->
  (forall x y, In (x, y) (combine (i :: t) (t ++ [i])) -> arc x y = true) -> (walk g (i :: t ++ [i]) <= 0)%Qc.
Hypothesis HG : forall i l, arc i l = true -> (g i l <= G)%Qc.
Hypothesis HG0 : (0 <= G)%Qc.

Fixpoint path (p : list nat) : bool :=
  match p with
  | [] => true
  | x :: t => (x <? n) && negb (existsb (Nat.eqb x) t) && match t with [] => true | y :: _ => arc x y end && path t
  end.
Lemma path_cons x t : path (x :: t) = true <->
  x < n /\ ~ In x t /\ match t with [] => True | y :: _ => arc x y = true end /\ path t = true.
Proof.
  cbn [path]. rewrite !andb_true_iff, negb_true_iff, Nat.ltb_lt.
  assert (A : existsb (Nat.eqb x) t = false <-> ~ In x t).
  { rewrite <- not_true_iff_false, existsb_exists. split; intros H I; apply H.
    - exists x; split; [exact I|apply Nat.eqb_refl].
    - destruct I as (y & I & Q). apply Nat.eqb_eq in Q. now subst. }
  rewrite A. destruct t as [|y t]; tauto.
Qed.
Lemma path_nodup p : path p = true -> NoDup p.
Proof. induction p as [|x p IH]; [constructor|]. intros H. apply path_cons in H. constructor; tauto. Qed.
Lemma path_lt p : path p = true -> forall x, In x p -> x < n.
Proof.
  induction p as [|x p IH]; [intros _ x []|]. intros H y [<-|I]; apply path_cons in H; [tauto|]. apply IH; tauto.
Qed.
Lemma path_step p : path p = true -> forall x y, consecutive p x y -> arc x y = true.
Proof.
  induction p as [|z p IH]; intros H x y (a & b & Q); [destruct a; discriminate|].
  apply path_cons in H as (_ & _ & H1 & H2). destruct a as [|z' a]; cbn [app] in Q; injection Q as -> Q.
  - subst p. exact H1.
  - apply IH; auto. exists a, b; exact Q.
Qed.
Lemma path_suffix a b : path (a ++ b) = true -> path b = true.
Proof. induction a as [|x a IH]; [auto|]. intros H. apply IH. cbn [app] in H. apply path_cons in H; tauto. Qed.

Definition height (i : nat) : Qc :=
  qmax0 (map (walk g) (filter (fun p => match p with x :: _ => x =? i | [] => false end && path p) (lists_upto n n))).
Lemma height_ge i t : path (i :: t) = true -> (walk g (i :: t) <= height i)%Qc.
Proof.
  intros H. unfold height. apply qmax0_ge, in_map, filter_In. split.
  - apply in_lists_upto; [|exact (path_lt _ H)]. rewrite <- (seq_length n 0).
    apply NoDup_incl_length; [exact (path_nodup _ H)|]. intros x I. apply in_seq. pose proof (path_lt _ H x I). lia.
  - rewrite Nat.eqb_refl. exact H.
Qed.
Lemma height_is i : i < n -> exists t, path (i :: t) = true /\ height i = walk g (i :: t).
Proof.
  intros Hi. unfold height. match goal with |- context [qmax0 ?l] => destruct (qmax0_in l) as [Q|I] end.
  - exists []. split; [apply path_cons; cbn; tauto|]. exact Q.
  - apply in_map_iff in I as (p & Q & I). apply filter_In in I as (_ & I).
    destruct p as [|x t]; [discriminate|]. apply andb_prop in I as (I1 & I2). apply Nat.eqb_eq in I1. subst x.
    exists t. split; [exact I2|]. symmetry; exact Q.
Qed.
Lemma height_arc i l : arc i l = true -> (g i l + height l <= height i)%Qc.
Proof.
  intros A. destruct (Harc _ _ A) as (Hi & Hl). destruct (Nat.eq_dec i l) as [->|Nl].
  { assert (X : (walk g (l :: [] ++ [l]) <= 0)%Qc).
    { apply Hcyc; [repeat constructor; intros []|]. intros x y [Q|[]]. injection Q as <- <-. exact A. }
    cbn [app] in X. rewrite walk_cons in X. change (walk g [l]) with 0%Qc in X. qlra. }
  destruct (height_is l Hl) as (t & Sp & Q). rewrite Q.
  destruct (in_dec Nat.eq_dec i (l :: t)) as [I|I].
  - destruct I as [I|I]; [congruence|]. apply in_split in I as (a & b & ->).
    assert (E : l :: a ++ i :: b = (l :: a) ++ i :: b) by reflexivity.
    assert (Sb : path (i :: b) = true) by (apply (path_suffix (l :: a)); rewrite <- E; exact Sp).
    pose proof (height_ge i b Sb) as Gb.
    assert (X : (walk g (i :: (l :: a) ++ [i]) <= 0)%Qc).
    { apply Hcyc.
      - pose proof (path_nodup _ Sp) as N. rewrite E in N. constructor.
        + apply NoDup_remove_2 in N. intros J; apply N, in_or_app; now left.
        + apply NoDup_remove_1 in N. clear - N. induction (l :: a) as [|z c IH]; [constructor|].
          cbn [app] in N. inversion N as [|? ? N1 N2]; subst. constructor; [|auto]. intros J; apply N1, in_or_app; now left.
      - intros x y J. apply combine_consecutive in J. destruct J as (u & v & J). destruct u as [|z u].
        + cbn [app] in J. injection J as <- <- _. exact A.
        + cbn [app] in J. injection J as <- J. apply (path_step _ Sp). exists u, (v ++ b). rewrite E.
          change (i :: b) with ([i] ++ b). rewrite app_assoc. change ((l :: a) ++ [i]) with (l :: a ++ [i]).
          rewrite J, <- app_assoc. reflexivity. }
    cbn [app] in X. rewrite walk_cons in X. rewrite E, walk_app. change ((l :: a) ++ [i]) with (l :: a ++ [i]). qlra.
  - assert (Sp' : path (i :: l :: t) = true) by (apply path_cons; tauto).
    pose proof (height_ge i _ Sp') as Gb. rewrite walk_cons in Gb. exact Gb.
Qed.
Lemma height_bound i : i < n -> (0 <= height i /\ height i <= qn n * G)%Qc.
Proof.
  intros Hi. split; [apply qmax0_nonneg|]. destruct (height_is i Hi) as (t & Sp & ->).
  eapply Qcle_trans; [apply (walk_le g G)|].
  - intros x y J. apply HG, (path_step _ Sp), J.
  - apply mul_mono; [|exact HG0]. apply qn_mono. assert (L : length (i :: t) <= n); [|cbn [length pred] in *; lia].
    rewrite <- (seq_length n 0). apply NoDup_incl_length; [exact (path_nodup _ Sp)|].
    intros x I. apply in_seq. pose proof (path_lt _ Sp x I). lia.
Qed.
(** potentials that vanish at [o] *)
Lemma heights o : o < n -> exists h : nat -> Qc, h o = 0%Qc /\
  (forall i l, arc i l = true -> (h i + g i l <= h l)%Qc) /\
  (forall i, i < n -> (- (qn n * G) <= h i /\ h i <= qn n * G)%Qc).
Proof.
  intros Ho. exists (fun i => height o - height i)%Qc. split; [ring|]. split.
  - intros i l A. pose proof (height_arc i l A). qlra.
  - intros i Hi. pose proof (height_bound o Ho). pose proof (height_bound i Hi). split; qlra.
Qed.
End Potential.
