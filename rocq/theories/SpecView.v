(** * Vocabulary: what a variable of a formula sees within a given distance (independent of the code). *)
From Coq Require Import Permutation.
From Verif Require Import Num Spec.
Local Open Scope nat_scope.

(** A formula with costs: the variables of every clause, their types (1 or -1), and the costs. *)
Record weighted := { w_conx : list (list nat); w_types : list (list Z); w_costs : list Qc }.

(** variable [x] is in clause [c] with type [t] *)
Definition occurs (f : weighted) (c x : nat) (t : Z) : Prop :=
  exists j, nth_error (nth c (w_conx f) []) j = Some x /\ nth_error (nth c (w_types f) []) j = Some t.
(** the clauses of a variable *)
Definition clauses_with (f : weighted) (x : nat) : list nat :=
  filter (fun c => existsb (Nat.eqb x) (nth c (w_conx f) [])) (seq 0 (length (w_conx f))).

(** ** Two formulas that look alike *)
Section Alike.
Variables f g : weighted.

(** [v] in clause [c] of [f] has the same type as [x] in clause [d] of [g] *)
Definition same_type (c v d x : nat) : Prop := forall t, occurs f c v t <-> occurs g d x t.

(** Seen from [v], clause [c] of [f] looks like clause [d] of [g] seen from [x]: the other variables
    can be paired so that the types agree and [R] holds. *)
Definition clause_alike (R : nat -> nat -> nat -> nat -> Prop) (c v d x : nat) : Prop :=
  same_type c v d x /\
  exists M : list (nat * nat),
    Permutation (map fst M) (others v (nth c (w_conx f) [])) /\
    Permutation (map snd M) (others x (nth d (w_conx g) [])) /\
    Forall (fun p => same_type c (fst p) d (snd p) /\ R c (fst p) d (snd p)) M.

(** Coming from clause [c], variable [v] of [f] looks like [x] of [g] coming from [d]: the costs
    agree and, up to distance [n], the other clauses can be paired so that they look alike. *)
Fixpoint branch (n c v d x : nat) : Prop :=
  nth v (w_costs f) 0%Qc = nth x (w_costs g) 0%Qc /\
  match n with
  | 0 => True
  | S m =>
      exists L : list (nat * nat),
        Permutation (map fst L) (others c (clauses_with f v)) /\
        Permutation (map snd L) (others d (clauses_with g x)) /\
        Forall (fun p => clause_alike (branch m) (fst p) v (snd p) x) L
  end.

(** Variable [v] of [f] looks like [x] of [g], up to distance [n] beyond the variables of its clauses. *)
Definition looks_like (n v x : nat) : Prop :=
  exists L : list (nat * nat),
    Permutation (map fst L) (clauses_with f v) /\ Permutation (map snd L) (clauses_with g x) /\
    Forall (fun p => clause_alike (branch n) (fst p) v (snd p) x) L.
End Alike.

(** Coming from clause [c] and variable [v], the formula ends within distance [n]. *)
Fixpoint ends (f : weighted) (n c v : nat) : Prop :=
  match n with
  | 0 => others c (clauses_with f v) = []
  | S m => forall c' w, In c' (others c (clauses_with f v)) -> In w (others v (nth c' (w_conx f) [])) -> ends f m c' w
  end.
Definition ends_within (f : weighted) (n x : nat) : Prop :=
  forall c w, In c (clauses_with f x) -> In w (others x (nth c (w_conx f) [])) -> ends f n c w.

(** Clause [c] is at distance at most [n] from variable [v] (1: it contains [v]). *)
Inductive within_clause (f : weighted) (v : nat) : nat -> nat -> Prop :=
| near_first : forall c, In v (nth c (w_conx f) []) -> within_clause f v 1 c
| near_next : forall n c w c', within_clause f v n c -> In w (nth c (w_conx f) []) -> In w (nth c' (w_conx f) []) -> within_clause f v (S n) c'.

(** ** Coverings *)

(** [fv] and [fc] map the variables and clauses of [g] to those of [f] so that every variable and
    every clause of [g] has around it a copy of what its image has: the clauses of [x] are mapped one
    to one to those of [fv x], the variables of [d] one to one to those of [fc d], and types and costs
    agree. *)
Definition covering (f g : weighted) (fv fc : nat -> nat) : Prop :=
  (forall d x t, occurs g d x t -> occurs f (fc d) (fv x) t /\ nth x (w_costs g) 0%Qc = nth (fv x) (w_costs f) 0%Qc) /\
  (forall d, d < length (w_conx g) -> Permutation (map fv (nth d (w_conx g) [])) (nth (fc d) (w_conx f) [])) /\
  (forall x, x < length (w_costs g) -> Permutation (map fc (clauses_with g x)) (clauses_with f (fv x))).
