(** * Floating-point numbers.

    Which rationals a binary floating-point format can hold, and what is asked of a rounding
    function: it leaves those numbers alone.  All rounding directions of IEEE-754 do. *)
From Verif Require Import Num.
Local Open Scope Z_scope.

(** 2^e for any integer [e] *)
Definition pow2 (e : Z) : Qc := Q2Qc (Qpower (inject_Z 2) e).

(** [m * 2^e] with a significand of [prec] bits and a bounded exponent.  IEEE-754 binary64
    ([double]) is [binary 53 (-1074) 971], binary32 ([float]) is [binary 24 (-149) 104]. *)
Definition binary (prec emin emax : Z) (q : Qc) : Prop :=
  exists m e, Z.abs m < 2 ^ prec /\ emin <= e <= emax /\ q = (zq m * pow2 e)%Qc.
Definition double : Qc -> Prop := binary 53 (-1074) 971.

(** [rnd] maps an exact result to the number the machine delivers (an infinity on overflow). *)
Definition keeps (F : Qc -> Prop) (rnd : Qc -> num) : Prop := forall q, F q -> rnd q = Fin q.

(** Nearest number of the format, ties to even (the default of IEEE-754). *)
Definition quotient_even (a b : Z) : Z :=
  let k := a / b in let r := a mod b in
  if 2 * r <? b then k else if b <? 2 * r then k + 1 else if Z.even k then k else k + 1.
Definition nearest (prec emin emax : Z) (q : Qc) : num :=
  let n := Qnum (this q) in let d := Zpos (Qden (this q)) in
  let a := Z.abs n in
  if a =? 0 then Fin 0 else
  let g := Z.log2 a - Z.log2 d in
  (* 2^(g-1) < |q| < 2^(g+1) *)
  let l := if (if 0 <=? g then d * 2 ^ g <=? a else d <=? a * 2 ^ (- g)) then g else g - 1 in
  let s := Z.max (l - prec + 1) emin in
  let m := if 0 <=? s then quotient_even a (d * 2 ^ s) else quotient_even (a * 2 ^ (- s)) d in
  if (emax <? s) || ((s =? emax) && (2 ^ prec <=? m)) then (if n <? 0 then NInf else PInf)
  else Fin (zq (Z.sgn n * m) * pow2 s)%Qc.
(** [double] arithmetic *)
Definition ieee : Qc -> num := nearest 53 (-1074) 971.
