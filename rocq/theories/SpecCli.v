(** * Specification: command lines and what they say (no code is modelled here). *)
From Coq Require Import Ascii String ZArith QArith Qcanon List Arith.
From Verif Require Import SpecCnf.
Import ListNotations.
Local Open Scope nat_scope.

(** ** What a word means *)

(** whole number: sign and decimal digits *)
Definition whole (z : Z) (w : list ascii) : Prop :=
  (exists n, z = Z.of_nat n /\ decimal n w) \/
  (exists n d, z = (- Z.of_nat n)%Z /\ w = "-"%char :: d /\ decimal n d).
(** [q] written with decimal digits [a] before and [b] after the point: [q * 10 ^ length b] is the
    number with digits [a ++ b] *)
Definition digits_value (w : list ascii) : nat := fold_left (fun x c => 10 * x + (code c - 48)) w 0.
Definition of_whole (z : Z) : Qc := Q2Qc (inject_Z z).
Definition unsigned_real (q : Qc) (w : list ascii) : Prop :=
  exists a b, Forall is_decimal_digit a /\ Forall is_decimal_digit b /\
    ((w = a /\ a <> [] /\ b = []) \/ (w = a ++ "."%char :: b /\ b <> [])) /\
    (q * of_whole (10 ^ Z.of_nat (length b)) = of_whole (Z.of_nat (digits_value (a ++ b))))%Qc.
Definition real (q : Qc) (w : list ascii) : Prop :=
  unsigned_real q w \/ (exists d, w = "-"%char :: d /\ unsigned_real (- q)%Qc d).

(** [w] is [q] rounded to one digit after the point, to an even digit in the middle of two *)
Definition one_digit (q : Qc) (w : list ascii) : Prop :=
  exists a c r, (w = a ++ ["."%char; c] \/ w = "-"%char :: a ++ ["."%char; c]) /\ real r w /\
    (r - Q2Qc (1#20) <= q)%Qc /\ (q <= r + Q2Qc (1#20))%Qc /\
    (q = r - Q2Qc (1#20) \/ q = r + Q2Qc (1#20) -> In c ["0"; "2"; "4"; "6"; "8"]%char)%Qc.

(** ** Settings *)

Definition prefix (a b : list ascii) : Prop := exists c, b = a ++ c.
(** [s] is the name [n] or an abbreviation that fits no other of [names] *)
Definition abbreviates (names : list (list ascii)) (s n : list ascii) : Prop :=
  In n names /\ (s = n \/ prefix s n /\ forall m, In m names -> prefix s m -> m = n).
Definition dash2 : list ascii := ["-"; "-"]%char.
(** a word that is not taken for the name of an option: nothing that starts with "-", except
    negative numbers *)
Definition ordinary (v : list ascii) : Prop :=
  hd_error v <> Some "-"%char \/ (exists q, real q v).
(** the words that set option [n] to [v]: "--name value" or "--name=value" *)
Inductive setting (names : list (list ascii)) (n v : list ascii) : list (list ascii) -> Prop :=
| setting_two s : abbreviates names s n -> ordinary v -> setting names n v [dash2 ++ s; v]
| setting_one s : abbreviates names s n -> setting names n v [dash2 ++ s ++ "="%char :: v].
(** a command line with the given settings *)
Definition command_line (names : list (list ascii)) (gs : list (list ascii * list ascii)) (argv : list (list ascii)) : Prop :=
  exists parts, argv = concat parts /\ Forall2 (fun g p => setting names (fst g) (snd g) p) gs parts.
(** the last setting of an option counts *)
Definition last_setting (n : list ascii) (gs : list (list ascii * list ascii)) : option (list ascii) :=
  fold_left (fun r g => if list_eq_dec ascii_dec (fst g) n then Some (snd g) else r) gs None.
