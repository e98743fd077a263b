(** * Vocabulary for whole runs (independent of the code). *)
From Verif Require Import Num Spec.
Local Open Scope nat_scope.

(** What filtering with factor [a] makes of the raw values [d 0], [d 1], ... at time [t]: an
    exponential average, or the raw value when filtering is off. *)
Definition filtered (flag : bool) (a : Qc) (d : nat -> Qc) (t : nat) : Qc :=
  if flag && negb (Qc_eq_bool a 0) then
    qsum (map (fun i => (1 - a) * a ^ (t - i) * d i)%Qc (seq 0 (t + 1)))
  else d t.

(** team [x] has a nonzero weight in department [d] *)
Definition takes_part (W : list (list nat)) (d x : nat) : bool := negb (nth x (nth d W []) 0 =? 0).
