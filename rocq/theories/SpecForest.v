(** * Vocabulary for formulas without cycles (independent of the code). *)
From Verif Require Import Num Spec MinSum.
From Coq Require Import Permutation.
Local Open Scope nat_scope.

(** A list of constraints, constraint [c] being over the variables [cx c], is a forest when the
    constraints can be added one by one (here from the right to the left of the list) so that each
    new one has a variable [v] besides which it shares nothing with those already there. *)
Inductive forest (cx : nat -> list nat) : list nat -> Prop :=
| forest_nil : forest cx []
| forest_cons : forall i v idx, In v (cx i) ->
    (forall u c, In u (cx i) -> u <> v -> In c idx -> ~ In u (cx c)) ->
    forest cx idx -> forest cx (i :: idx).

(** The clauses of a formula form a forest, in some order. *)
Definition tree_like (conx : list (list nat)) : Prop :=
  exists order, Permutation order (seq 0 (length conx)) /\ forest (fun c => nth c conx []) order.

(** The assignment [x] (one value for every variable) makes every clause true. *)
Definition satisfies (conx : list (list nat)) (types : list (list Z)) (x : list bool) : Prop :=
  forall c cx tys, nth_error conx c = Some cx -> nth_error types c = Some tys ->
    clause_ok (signs tys) (map (fun v => nth v x false) cx).

(** Cost of the variables in [used]. *)
Definition cost_on (used : list nat) (metrics : list Qc) (x : list bool) : Qc :=
  qsum (map (fun v => if nth v x false then nth v metrics 0%Qc else 0%Qc) used).
