(** * Vocabulary for closed tours: length, exchange of nodes, growing a path at its ends.  Nothing
    here refers to the model of the code. *)
From Coq Require Import Permutation.
From Verif Require Import Num NumFacts Arr Spec SpecGraph.
Local Open Scope nat_scope.

(** total weight of the closed walk through the nodes of [t] *)
Definition tour_length (w : nat -> nat -> Qc) (t : list nat) : Qc :=
  qsum (map (fun e => w (fst e) (snd e)) (steps (t ++ firstn 1 t))).

(** [t'] is [t] with two nodes exchanged *)
Definition exchange2 (t t' : list nat) : Prop := exists a b c x y,
  t = a ++ x :: b ++ y :: c /\ t' = a ++ y :: b ++ x :: c.
(** [t'] is [t] with three nodes moved on cyclically *)
Definition exchange3 (t t' : list nat) : Prop := exists a b c d x y z,
  t = a ++ x :: b ++ y :: c ++ z :: d /\ t' = a ++ z :: b ++ x :: c ++ y :: d.

(** [grown w rest t t']: starting from the path [t], the nodes of [rest] are attached one after the
    other, always the cheapest possible attachment to the front or to the back; a front attachment
    wins a tie *)
Inductive grown (w : nat -> nat -> Qc) : list nat -> list nat -> list nat -> Prop :=
| grown_done : forall t, grown w [] t t
| grown_front : forall rest rest' v h t t',
    Permutation rest (v :: rest') ->
    (forall u, In u rest -> (w v h <= w u h)%Qc) ->
    (forall u, In u rest -> (w v h <= w (last (h :: t) 0%nat) u)%Qc) ->
    grown w rest' (v :: h :: t) t' -> grown w rest (h :: t) t'
| grown_back : forall rest rest' v h t t',
    Permutation rest (v :: rest') ->
    (forall u, In u rest -> (w (last (h :: t) 0%nat) v <= w (last (h :: t) 0%nat) u)%Qc) ->
    (forall u, In u rest -> (w (last (h :: t) 0%nat) v < w u h)%Qc) ->
    grown w rest' ((h :: t) ++ [v]) t' -> grown w rest (h :: t) t'.

(** a grown path contains the old one in one piece, between the new nodes *)
Lemma grown_split : forall w rest t t', grown w rest t t' ->
  exists a b, t' = a ++ t ++ b /\ Permutation (a ++ b) rest.
Proof.
  intros w rest t t' H; induction H as [t|rest rest' v h t t' P _ _ _ (a & b & -> & Q)|rest rest' v h t t' P _ _ _ (a & b & -> & Q)].
  - exists [], []; rewrite app_nil_r; cbn; split; [reflexivity|apply Permutation_refl].
  - exists (a ++ [v]), b; split; [rewrite <- app_assoc; reflexivity|].
    apply Permutation_sym in P. eapply Permutation_trans; [|exact P]. rewrite <- app_assoc. cbn.
    apply Permutation_sym. eapply Permutation_trans; [|apply Permutation_middle]. constructor.
    now apply Permutation_sym.
  - exists a, (v :: b); split; [rewrite <- !app_assoc; reflexivity|].
    apply Permutation_sym in P. eapply Permutation_trans; [|exact P].
    apply Permutation_sym. eapply Permutation_trans; [|apply Permutation_middle]. constructor.
    now apply Permutation_sym.
Qed.

Lemma exchange2_perm : forall t t', exchange2 t t' -> Permutation t t'.
Proof.
  intros t t' (a & b & c & x & y & -> & ->). apply Permutation_app_head.
  eapply Permutation_trans; [|apply (Permutation_middle (y :: b) c x)].
  constructor. apply Permutation_sym. cbn. apply Permutation_middle.
Qed.
Lemma exchange3_perm : forall t t', exchange3 t t' -> Permutation t t'.
Proof.
  intros t t' (a & b & c & d & x & y & z & -> & ->).
  eapply Permutation_trans; [apply (exchange2_perm _ (a ++ y :: b ++ x :: c ++ z :: d))|].
  - exists a, b, (c ++ z :: d), x, y; split; reflexivity.
  - apply exchange2_perm. exists a, (b ++ x :: c), d, y, z.
    rewrite <- !app_assoc. cbn. split; reflexivity.
Qed.

Lemma steps_closed : forall x t, steps ((x :: t) ++ [x]) = combine (x :: t) (t ++ [x]).
Proof.
  intros x t. generalize x at 2 4 as z. revert x.
  induction t as [|y t IH]; intros x z; [reflexivity|].
  change (steps ((x :: y :: t) ++ [z])) with ((x, y) :: steps ((y :: t) ++ [z])).
  rewrite IH. reflexivity.
Qed.
