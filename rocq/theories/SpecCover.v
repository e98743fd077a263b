(** * Vocabulary for cycle covers and tours of a cost matrix (independent of the code). *)
From Coq Require Import Permutation.
From Verif Require Import Num Spec SpecGraph.
Local Open Scope nat_scope.

(** a natural number as a rational *)
Fixpoint qn (k : nat) : Qc := match k with O => 0%Qc | S k => (qn k + 1)%Qc end.

(** a choice of one successor for each of the nodes [0 .. n-1], such that every node is chosen
    exactly once and none chooses itself *)
Definition cover (n : nat) (s : list nat) : Prop :=
  Permutation s (seq 0 n) /\ forall i, nth_error s i <> Some i.
(** the edges of a cover and their total cost *)
Definition cover_edges (s : list nat) : list (nat * nat) := combine (seq 0 (length s)) s.
Definition edges_cost (C : list (list Qc)) (E : list (nat * nat)) : Qc :=
  qsum (map (fun e => qat C (fst e) (snd e)) E).
Definition cover_cost (C : list (list Qc)) (s : list nat) : Qc := edges_cost C (cover_edges s).
(** [s] is cheaper than every other cover, by at least [eps] *)
Definition cheapest_by (n : nat) (C : list (list Qc)) (s : list nat) (eps : Qc) : Prop :=
  cover n s /\ forall s', cover n s' -> s' <> s -> (cover_cost C s + eps <= cover_cost C s')%Qc.
(** [s] is the only cheapest cover *)
Definition cheapest (n : nat) (C : list (list Qc)) (s : list nat) : Prop :=
  cover n s /\ forall s', cover n s' -> s' <> s -> (cover_cost C s < cover_cost C s')%Qc.

(** the closed walk through the nodes of [h] and back to the first, and its cost *)
Definition closed (h : list nat) : list nat :=
  match h with [] => [] | x :: _ => h ++ [x] end.
Definition tour_cost (C : list (list Qc)) (h : list nat) : Qc := edges_cost C (steps (closed h)).
