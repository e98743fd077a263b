(** * Vocabulary for the occurrences of literals in a formula (independent of the code). *)
From Verif Require Import Spec.
From Coq Require Import List Arith ZArith Bool.
Import ListNotations.
Local Open Scope nat_scope.

(** Clause [c] contains variable [x] with sign [s] ([true]: positive). *)
Definition has_literal (conx : list (list nat)) (types : list (list Z)) (x : nat) (s : bool) (c : nat) : bool :=
  existsb (fun p => (fst p =? x) && Bool.eqb (snd p) s) (combine (nth c conx []) (signs (nth c types []))).
(** The number of clauses that contain it. *)
Definition literal_count (conx : list (list nat)) (types : list (list Z)) (x : nat) (s : bool) : nat :=
  length (filter (has_literal conx types x s) (seq 0 (length conx))).
(** [1 + d + d^2 + ... ], [n] terms *)
Definition powers (d n : nat) : nat := list_sum (map (fun i => d ^ i) (seq 0 n)).
