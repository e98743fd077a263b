(** * Vocabulary: a model as it is seen by walking away from a variable (independent of the code).

    A walk goes from a variable to another variable of one of its constraints and so on, without
    turning back: not to the variable and not through the constraint it has just come from.  It is
    written as the list of its steps (constraint, variable).  In the unfolding of a model every walk
    has a variable of its own, a copy of the variable at its end; the unfolding has no cycles. *)
From Verif Require Import Num Spec SpecView.
Local Open Scope nat_scope.

(** Constraints, the variables of each, which values it allows, and the cost of setting a variable. *)
Record network := { n_all : list nat; n_scope : nat -> list nat; n_allows : nat -> (nat -> bool) -> Prop; n_price : nat -> Qc }.
(** the constraints of a variable *)
Definition containing (N : network) (v : nat) : list nat := filter (fun c => existsb (Nat.eqb v) (n_scope N c)) (n_all N).

(** a value for every walk *)
Definition labelling := list (nat * nat) -> bool.
(** the part of a labelling after the first step *)
Definition after (a : labelling) (c w : nat) : labelling := fun p => a ((c, w) :: p).

(** the copies of the constraints [cs] at the beginning of the walks from [v] are satisfied, and [R] holds beyond *)
Definition copies_hold (N : network) (R : nat -> nat -> labelling -> Prop) (cs : list nat) (v : nat) (a : labelling) : Prop :=
  forall c, In c cs ->
    n_allows N c (fun w => if w =? v then a [] else a [(c, w)]) /\
    forall w, In w (others v (n_scope N c)) -> R c w (after a c w).
Definition copies_cost (N : network) (C : nat -> nat -> labelling -> Qc) (cs : list nat) (v : nat) (a : labelling) : Qc :=
  qsum (map (fun c => qsum (map (fun w => C c w (after a c w)) (others v (n_scope N c)))) cs).

(** walks of at most [n] steps from [v], not through [c]: all their constraints are satisfied; their cost *)
Fixpoint branch_holds (N : network) (n c v : nat) (a : labelling) : Prop :=
  match n with
  | 0 => True
  | S m => copies_hold N (branch_holds N m) (others c (containing N v)) v a
  end.
Fixpoint branch_cost (N : network) (n c v : nat) (a : labelling) : Qc :=
  ((if a [] then n_price N v else 0) +
   match n with
   | 0 => 0
   | S m => copies_cost N (branch_cost N m) (others c (containing N v)) v a
   end)%Qc.

(** all walks of at most [n] steps from [v]; the cost of [v] itself is not counted *)
Definition unfolding_holds (N : network) (n v : nat) (a : labelling) : Prop :=
  match n with 0 => True | S m => copies_hold N (branch_holds N m) (containing N v) v a end.
Definition unfolding_cost (N : network) (n v : nat) (a : labelling) : Qc :=
  match n with 0 => 0%Qc | S m => copies_cost N (branch_cost N m) (containing N v) v a end.

(** [q]: the cost of the cheapest labelling that satisfies the unfolding and gives [v] the value [b] *)
Definition cheapest (N : network) (n v : nat) (b : bool) (q : Qc) : Prop :=
  (exists a, a [] = b /\ unfolding_holds N n v a /\ unfolding_cost N n v a = q) /\
  forall a, a [] = b -> unfolding_holds N n v a -> (q <= unfolding_cost N n v a)%Qc.

(** ** Formulas *)

(** a literal of clause [c] is true *)
Definition some_literal (f : weighted) (c : nat) (x : nat -> bool) : Prop :=
  exists w t, occurs f c w t /\ x w = (t =? 1)%Z.
Definition formula_network (f : weighted) : network :=
  {| n_all := seq 0 (length (w_conx f)); n_scope := fun c => nth c (w_conx f) []; n_allows := some_literal f;
     n_price := fun v => nth v (w_costs f) 0%Qc |}.

(** ** Cycle covers *)

(** The edges out of every node (constraints [0] to [n - 1]) and into every node ([n] to [2 n - 1]) of
    a complete graph, exactly one of which is chosen; edge (u, v) is variable [u * n + v]. *)
Definition one_chosen (l : list nat) (x : nat -> bool) : Prop :=
  exists e, In e l /\ x e = true /\ forall e', In e' l -> x e' = true -> e' = e.
Definition cover_scope (n c : nat) : list nat :=
  if c <? n then map (fun v => c * n + v) (others c (seq 0 n)) else map (fun u => u * n + (c - n)) (others (c - n) (seq 0 n)).
Definition cover_network (n : nat) (cost : nat -> nat -> Qc) : network :=
  {| n_all := seq 0 (2 * n); n_scope := cover_scope n; n_allows := fun c => one_chosen (cover_scope n c);
     n_price := fun e => cost (e / n) (e mod n) |}.
