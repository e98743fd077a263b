(** * Vocabulary for the properties of the KC-MWM front end. *)
From Verif Require Import Num NumFacts Arr.
Local Open Scope nat_scope.

(** A team: first department, second department (numbered from 1) and type. *)
Definition team := (nat * nat * nat)%type.
Definition t_u (t : team) := fst (fst t).
Definition t_v (t : team) := snd (fst t).
Definition t_type (t : team) := snd t.

(** fighters (taken from the first department) and weasels (from the second) of a team type *)
Definition members (ty : nat) : nat * nat :=
  match ty with 1 => (1, 0) | 2 => (1, 1) | 3 => (2, 0) | 4 => (2, 1) | 5 => (2, 2) | _ => (0, 0) end.
(** what a team uses of department [d] *)
Definition need (d : nat) (t : team) : nat :=
  (if d =? t_u t then fst (members (t_type t)) else 0) + (if d =? t_v t then snd (members (t_type t)) else 0).
(** a pair of departments makes sense for a type unless the second one would contribute nothing *)
Definition sensible (t : team) : Prop := t_u t = t_v t \/ snd (members (t_type t)) <> 0.
(** [k] copies of a team fit into the capacities ([nth (d - 1) caps 0] is the one of [d]) *)
Definition fits (caps : list nat) (k : nat) (t : team) : Prop :=
  forall d, 1 <= d <= length caps -> k * need d t <= nth (d - 1) caps 0.
(** [k] is the number of copies of a team that are generated: as many as fit *)
Definition team_count (caps : list nat) (t : team) (k : nat) : Prop :=
  (sensible t /\ fits caps k t /\ ~ fits caps (k + 1) t) \/ (~ sensible t /\ k = 0).

(** total use of department [d] by a list of teams *)
Definition used (teams : list team) (d : nat) (sel : list nat) : nat :=
  list_sum (map (fun t => need d (nth t teams (0, 0, 0))) sel).
Definition within_capacity (caps : list nat) (teams : list team) (sel : list nat) : Prop :=
  forall d, 1 <= d <= length caps -> used teams d sel <= nth (d - 1) caps 0.

(** combinations (in order) with all types (in order) *)
Definition blocks (types : list nat) (combos : list (nat * nat)) : list team :=
  flat_map (fun c => map (fun ty => (c, ty)) types) combos.
(** the teams generated, in order: for every combination and type as many as fit *)
Definition generated (caps types : list nat) (combos : list (nat * nat)) (teams : list team) : Prop :=
  exists count : team -> nat,
    (forall b, In b (blocks types combos) -> team_count caps b (count b)) /\
    teams = flat_map (fun b => repeat b (count b)) (blocks types combos).
(** every kind of team that makes sense fits at least once *)
Definition room (caps types : list nat) (combos : list (nat * nat)) : Prop :=
  forall b, In b (blocks types combos) -> sensible b -> fits caps 1 b.

(** ** Capacity repair *)
Section Repair.
Variables (caps : list nat) (teams : list team) (val : nat -> num).
Definition overfull (sel : list nat) (d : nat) : Prop :=
  1 <= d <= length caps /\ nth (d - 1) caps 0 < used teams d sel.
Definition u_of (t : nat) : nat := t_u (nth t teams (0, 0, 0)).
Definition v_of (t : nat) : nat := t_v (nth t teams (0, 0, 0)).
Definition in_dept (d t : nat) : Prop := d = u_of t \/ d = v_of t.
(** [t] is the first team of the selection whose value is the largest value of a candidate; it
    need not be a candidate *)
Definition largest_of (cand : nat -> Prop) (sel : list nat) (t : nat) : Prop :=
  In t sel /\
  (exists t0, In t0 sel /\ cand t0 /\ val t = val t0 /\ forall t1, In t1 sel -> cand t1 -> nle (val t1) (val t0)) /\
  (forall t1, In t1 sel -> t1 < t -> val t1 <> val t).
(** option 1: candidates are the teams in the first department over capacity *)
Definition removes_1 (sel : list nat) (t : nat) : Prop :=
  exists d, overfull sel d /\ (forall d', d' < d -> ~ overfull sel d') /\ largest_of (in_dept d) sel t.
(** option 2: from every department over capacity, its teams with both departments over capacity,
    or all its teams if there are none; among all of these only those in two departments if there
    are such *)
Definition both_over (sel : list nat) (t : nat) : Prop := overfull sel (u_of t) /\ overfull sel (v_of t).
Definition candidate_2 (sel : list nat) (t : nat) : Prop :=
  exists d, overfull sel d /\ in_dept d t /\
    (both_over sel t \/ ~ exists t', In t' sel /\ in_dept d t' /\ both_over sel t').
Definition candidate_2' (sel : list nat) (t : nat) : Prop :=
  candidate_2 sel t /\
  (u_of t <> v_of t \/ ~ exists t', In t' sel /\ candidate_2 sel t' /\ u_of t' <> v_of t').
Definition removes_2 (sel : list nat) (t : nat) : Prop := largest_of (candidate_2' sel) sel t.

(** repeat removing until no department is over capacity *)
Inductive removals (step : list nat -> nat -> Prop) : list nat -> list nat -> Prop :=
| rem_stop sel : within_capacity caps teams sel -> removals step sel sel
| rem_more sel t sel' : ~ within_capacity caps teams sel -> step sel t ->
    removals step (filter (fun x => negb (x =? t)) sel) sel' -> removals step sel sel'.
End Repair.

(** ** Reported teams *)

(** the matched (project, team) pairs of team [t] *)
Definition uses (pairs : list (nat * nat)) (t : nat) : list (nat * nat) := filter (fun c => snd c =? t) pairs.
(** of the first two uses of a team the one with the lower value, the second one on a tie *)
Definition lower_use (A : list (list num)) (c1 c2 : nat * nat) : nat * nat :=
  let value c := nth (snd c) (nth (fst c) A []) n0 in if nlt (value c1) (value c2) then c1 else c2.
(** the pairs reported for team [t]: its uses; with post-processing, for a team that is used more
    than once, all pairs of the project of [lower_use] *)
Definition reported (A : list (list num)) (pairs : list (nat * nat)) (pp : bool) (t : nat) : list (nat * nat) :=
  match uses pairs t with
  | c1 :: c2 :: rest => if pp then filter (fun c => fst c =? fst (lower_use A c1 c2)) pairs else c1 :: c2 :: rest
  | us => us
  end.

(** ** Pruning of department pairs *)
Section Pruning.
(** [F], [W], distances and rendez-vous kinds of the departments, numbered from 1 *)
Variables (F W : nat -> Z) (dist : nat -> nat -> Z) (kind : nat -> nat -> nat).
Definition score (u v : nat) : Z := (F u + W v)%Z.
(** the ordered pair [(u, v)] is dropped in favour of [(v, u)] *)
Definition dropped (u v : nat) : Prop :=
  u <> v /\ kind u v = kind v u /\
  ((dist u v = dist v u /\ (score v u < score u v)%Z) \/ (score v u = score u v /\ v < u)).
End Pruning.
