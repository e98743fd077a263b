(** * Two numbers that differ by at most [e] (independent of the code). *)
From Coq Require Import QArith Qcanon.
Local Open Scope Qc_scope.
Definition within (e x y : Qc) : Prop := (- e <= x - y /\ x - y <= e)%Qc.
