(** * Model: test/src/test_EOP/test_EOP.cpp.

    A self-check: the sum of the messages of all departments and of the coupling constraint, as the
    library computes it, compared with a plain double loop.  [rnd] is the rounding of [impalib_type];
    the sizes 100 and 10000 and the random numbers are parameters. *)
From Verif Require Import Num Arr M_Float.
Local Open Scope nat_scope.

Section Check.
Variable rnd : Qc -> num.
(** test_EOP.cpp:36-52: the library's order (input_output.hpp:155-162), beginning with zeros *)
Definition eop_library (items : nat) (bins : list (list num)) (oric : list num) : option (list num) :=
  extrinsic_output_team_f rnd bins oric (repeat n0 items).
(** 54-60: the plain order *)
Definition eop_plain (n items : nat) (bins : list (list num)) : option (list num) :=
  for_up 0 n (repeat n0 items) (fun out b => for_up 0 items out (fun out i =>
    x <- get out i ;; y <- get2 bins b i ;; set out i (fadd rnd x y))).
(** 62-72: the messages of the coupling constraint are added last; [false] is the exit at the first
    difference ("Failed"), [true] is "Succeeded" *)
Definition eop_compare (items : nat) (plain oric library : list num) : option bool :=
  ' (_, same) <- for_up 0 items (plain, true) (fun st i =>
    if snd st then
      x <- get (fst st) i ;; y <- get oric i ;;
      let v := fadd rnd x y in
      d <- set (fst st) i v ;; w <- get library i ;; Some (d, neqb v w)
    else Some st) ;;
  Some same.
(** 33-80 *)
Definition eop_check (n items : nat) (bins : list (list num)) (oric : list num) : option bool :=
  l <- eop_library items bins oric ;;
  d <- eop_plain n items bins ;;
  eop_compare items d oric l.
End Check.
