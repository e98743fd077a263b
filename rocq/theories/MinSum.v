(** * Specification of message updates (independent of the code).

    A constraint on [n] binary variables is the set of its allowed configurations.  Every
    variable [j] sends a message [m_j]: the cost of setting it to 1 (setting it to 0 costs 0).
    The min-sum message towards variable [i] is the difference between the cheapest way to
    complete [x_i = 1] and the cheapest way to complete [x_i = 0], counting only the costs of
    the other variables. *)
From Verif Require Import Num.
Local Open Scope Qc_scope.

(** Cost of a configuration. *)
Fixpoint total (m : list Qc) (x : list bool) : Qc :=
  match m, x with
  | a :: m, b :: x => (if b then a else 0) + total m x
  | _, _ => 0
  end.

(** Cost of a configuration without the contribution of variable [i]. *)
Definition rest (i : nat) (m : list Qc) (x : list bool) : Qc :=
  total m x - (if nth i x false then nth i m 0 else 0).

(** [v] is the minimum of a set of rationals, [PInf] when the set is empty. *)
Definition is_min_of (P : Qc -> Prop) (v : num) : Prop :=
  match v with
  | Fin q => P q /\ forall r, P r -> q <= r
  | PInf => forall r, ~ P r
  | NInf | NaN => False
  end.

(** Cheapest completion of [x_i = b]. *)
Definition best (allowed : list bool -> Prop) (m : list Qc) (i : nat) (b : bool) (v : num) : Prop :=
  is_min_of (fun q => exists x, length x = length m /\ allowed x /\ nth_error x i = Some b
                                /\ q = rest i m x) v.

Definition minsum_message (allowed : list bool -> Prop) (m : list Qc) (i : nat) (v : num) : Prop :=
  exists v1 v0, best allowed m i true v1 /\ best allowed m i false v0 /\ v = nsub v1 v0.

(** ** The constraints of the library *)

(** number of variables set to 1 *)
Definition ones (x : list bool) : nat := count_occ Bool.bool_dec x true.

(** degree constraint: exactly one of the edges is used *)
Definition exactly_one (x : list bool) : Prop := ones x = 1%nat.
(** project constraint: at most one team is assigned *)
Definition at_most_one (x : list bool) : Prop := (ones x <= 1)%nat.
(** subtour elimination: at least one edge leaves the set *)
Definition at_least_one (x : list bool) : Prop := (1 <= ones x)%nat.
(** copies of one variable *)
Definition all_equal (x : list bool) : Prop := forall a b, In a x -> In b x -> a = b.

(** knapsack: the total weight of the selected items is within the capacity *)
Fixpoint weight (w : list nat) (x : list bool) : nat :=
  match w, x with
  | a :: w, b :: x => ((if b then a else 0) + weight w x)%nat
  | _, _ => 0%nat
  end.
Definition within (w : list nat) (cap : nat) (x : list bool) : Prop := (weight w x <= cap)%nat.

(** team/project coupling; position 0 is the team, the others are its projects: an unformed
    team has no project, a formed team has exactly one. *)
Definition coupled (x : list bool) : Prop :=
  match x with
  | [] => True
  | team :: projects => ones projects = if team then 1%nat else 0%nat
  end.

(** clause: at least one literal is true; [sg_j = true] for a positive literal *)
Definition clause_ok (sg : list bool) (x : list bool) : Prop :=
  exists j s b, nth_error sg j = Some s /\ nth_error x j = Some b /\ b = s.
