(** * Cycles of a formula (independent of the code). *)
From Verif Require Import Num.
Local Open Scope nat_scope.

(** A cycle among constraints [S], constraint [c] being over the variables [cx c]: two or more
    different constraints and as many different variables, each variable occurring in its constraint
    and in the next one (after the last comes the first). *)
Definition cycle (cx : nat -> list nat) (S : list nat) (l : list (nat * nat)) : Prop :=
  2 <= length l /\ NoDup (map fst l) /\ NoDup (map snd l) /\ (forall c, In c (map fst l) -> In c S) /\
  forall j, j < length l ->
    In (nth j (map snd l) 0) (cx (nth j (map fst l) 0)) /\
    In (nth j (map snd l) 0) (cx (nth (Nat.modulo (j + 1) (length l)) (map fst l) 0)).
(** No cycle among the clauses of a formula. *)
Definition acyclic (conx : list (list nat)) : Prop :=
  forall l, ~ cycle (fun c => nth c conx []) (seq 0 (length conx)) l.
