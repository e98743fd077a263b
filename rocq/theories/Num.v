(** * Numbers.

    Models [impalib_type] (= [double], include/impalib/common.hpp:40) and numpy [float64]
    (src/impa/environmentModule.py: [np_impa_lib]) as exact rationals extended with
    [+inf] ([value_inf], common.hpp), [-inf] and [NaN].

    Simplification: no rounding, no overflow to infinity, one zero.  Everything else
    (infinities, NaN propagation, comparisons with NaN being false, the exact branch taken by
    [std::min]/[std::max]) follows IEEE-754 and the C++ standard library. *)
From Coq Require Export QArith Qcanon Bool List ZArith Lia.
From Coq Require Import Lqa.
Export ListNotations.
Local Open Scope Qc_scope.

Inductive num : Type :=
| Fin (q : Qc)
| PInf
| NInf
| NaN.

(** Comparison of rationals, computable. *)
Definition qltb (a b : Qc) : bool := negb (Qle_bool (this b) (this a)).

(** [a < b] on doubles: false as soon as one side is NaN. *)
Definition nlt (a b : num) : bool :=
  match a, b with
  | NaN, _ | _, NaN => false
  | Fin x, Fin y => qltb x y
  | NInf, NInf => false
  | NInf, _ => true
  | _, NInf => false
  | PInf, _ => false
  | Fin _, PInf => true
  end.

(** [a > b] and [a <= b] on doubles. *)
Definition ngt (a b : num) : bool := nlt b a.
Definition nleb (a b : num) : bool :=
  match a, b with
  | NaN, _ | _, NaN => false
  | _, _ => negb (nlt b a)
  end.

(** [a == b] on doubles (NaN differs from itself). *)
Definition neqb (a b : num) : bool :=
  match a, b with
  | NaN, _ | _, NaN => false
  | _, _ => negb (nlt a b) && negb (nlt b a)
  end.

Definition nadd (a b : num) : num :=
  match a, b with
  | NaN, _ | _, NaN => NaN
  | Fin x, Fin y => Fin (x + y)
  | PInf, NInf | NInf, PInf => NaN
  | PInf, _ | _, PInf => PInf
  | NInf, _ | _, NInf => NInf
  end.

Definition nopp (a : num) : num :=
  match a with Fin x => Fin (- x) | PInf => NInf | NInf => PInf | NaN => NaN end.

(** [a - b]; IEEE subtraction is addition of the negation. *)
Definition nsub (a b : num) : num := nadd a (nopp b).

(** sign of a rational as a number: used only for [inf * x]. *)
Definition ninf_times (x : Qc) : num :=
  if qltb 0 x then PInf else if qltb x 0 then NInf else NaN.

Definition nmul (a b : num) : num :=
  match a, b with
  | NaN, _ | _, NaN => NaN
  | Fin x, Fin y => Fin (x * y)
  | PInf, PInf | NInf, NInf => PInf
  | PInf, NInf | NInf, PInf => NInf
  | PInf, Fin x | Fin x, PInf => ninf_times x
  | NInf, Fin x | Fin x, NInf => nopp (ninf_times x)
  end.

(** [std::min(a,b)] returns [b] iff [b < a]; [std::max(a,b)] returns [b] iff [a < b]. *)
Definition nmin (a b : num) : num := if nlt b a then b else a.
Definition nmax (a b : num) : num := if nlt a b then b else a.

Definition nabs (a : num) : num :=
  match a with
  | Fin x => if qltb x 0 then Fin (- x) else Fin x
  | PInf | NInf => PInf
  | NaN => NaN
  end.

Definition n0 : num := Fin 0.
Definition n1 : num := Fin 1.

Definition is_fin (a : num) : bool := match a with Fin _ => true | _ => false end.
Definition is_nan (a : num) : bool := match a with NaN => true | _ => false end.

(** Conversions used in examples. *)
Definition zq (z : Z) : Qc := Q2Qc (inject_Z z).
Definition zn (z : Z) : num := Fin (zq z).

(** A printable view of numbers on which computed results can be compared by [reflexivity]. *)
Inductive nview := VFin (q : Q) | VPInf | VNInf | VNaN.
Definition view (a : num) : nview :=
  match a with Fin x => VFin (this x) | PInf => VPInf | NInf => VNInf | NaN => VNaN end.
