(** * Vocabulary for the ranges of rewards (independent of the code). *)
From Verif Require Import Num Spec.
Local Open Scope nat_scope.

(** Every team [x] has a project whose reward for [x] is at most [c], and exceeds the total of project and team reward of any
    other team by at most [c]. *)
Definition moderate (T P : nat) (R : list (list Qc)) (reward : list Qc) (c : Qc) : Prop :=
  forall x, x < T -> exists p, p < P /\ (qat R p x <= c)%Qc /\
    forall y, y < T -> y <> x -> (qat R p x - (qat R p y + nth y reward 0) <= c)%Qc.
(** All rewards are between [-B] and [B]. *)
Definition rewards_within (T P : nat) (R : list (list Qc)) (reward : list Qc) (B : Qc) : Prop :=
  (0 <= B)%Qc /\ (forall x, x < T -> (- B <= nth x reward 0 /\ nth x reward 0 <= B)%Qc) /\
  (forall p x, p < P -> x < T -> (- B <= qat R p x /\ qat R p x <= B)%Qc).
