(** * Model: the verdicts of the unit tests.

    test/python_{tsp,ksat,kc_mwm}/test/ut_utils.py, [check_agreement] and
    [check_forward_backward_results].  The arrays that are read from files are parameters (flattened);
    the texts that are printed are reduced to the verdict, [true] for PASSED; [None] is a Python
    exception.  Arithmetic is exact. *)
From Verif Require Import Num Arr M_PyRef.
Local Open Scope nat_scope.

(** ** numpy *)

(** [a / b] on numpy numbers: no exception, [x / 0] is infinite and [0 / 0] is NaN
    (simplification: there is one zero, taken as positive) *)
Definition np_div (a b : num) : num :=
  match a, b with
  | NaN, _ | _, NaN => NaN
  | Fin x, Fin y =>
      if neqb b n0 then (if qltb 0 x then PInf else if qltb x 0 then NInf else NaN)
      else Fin (x / y)
  | Fin _, (PInf | NInf) => n0
  | (PInf | NInf), (PInf | NInf) => NaN
  | _, Fin y => if qltb y 0 then nopp a else a
  end.
(** [a - b] on arrays of one dimension, with broadcasting *)
Definition np_sub (a b : list num) : option (list num) :=
  if length a =? length b then Some (zip_with nsub a b)
  else match a, b with
       | _, [y] => Some (map (fun x => nsub x y) a)
       | [x], _ => Some (map (nsub x) b)
       | _, _ => None
       end.
(** [np.nanmax(v)]: NaN is left out; NaN if nothing is left; ValueError on an empty array *)
Definition np_nanmax (l : list num) : option num :=
  match l with
  | [] => None
  | _ => Some (match np_max (filter (fun x => negb (is_nan x)) l) with Some m => m | None => NaN end)
  end.
(** [v[v != inf]] *)
Definition np_not_inf (l : list num) : list num := filter (fun x => negb (neqb x PInf)) l.
(** builtin [any(v)] on numbers: everything except zero is true; as a number in a comparison it is 0 or 1 *)
Definition py_any (l : list num) : num := if existsb (fun x => negb (neqb x n0)) l then n1 else n0.
(** [1e-30] *)
Definition tiny : num := Fin (Q2Qc (1 # 10 ^ 30)).

(** ** ut_utils.py:9-34 (tsp, ksat), 10-35 (kc_mwm) *)
Definition check_agreement (rtol atol : num) (y_pure y_wrapper : list num) : option bool :=
  (* the assertion on the shapes *)
  if negb (length y_pure =? length y_wrapper) then None
  else
    d <- np_sub y_pure y_wrapper ;;
    let d := map nabs d in
    max_absolute_error <- np_max d ;;
    m <- np_max y_pure ;;
    max_relative_error <- np_max (map (fun e => np_div e (nabs (nadd m tiny))) d) ;;
    Some (negb (ngt max_absolute_error atol || ngt max_relative_error rtol)).

(** ** kc_mwm ut_utils.py:37-81, one pair of arrays for every file number *)
Definition check_forward_backward_step (rtol atol : num) (st : list num * list num * list bool)
    (y : list num * list num) : option (list num * list num * list bool) :=
  let '(max_absolute_error, max_relative_error, ut_failed) := st in
  let (y_pure, y_wrapper) := y in
  d <- np_sub (np_not_inf y_pure) (np_not_inf y_wrapper) ;;
  let error := map nabs d in
  e <- np_nanmax (np_not_inf error) ;;
  let max_absolute_error := max_absolute_error ++ [e] in
  m <- np_max (np_not_inf y_pure) ;;
  let max_relative_error := max_relative_error ++ [np_div e (nabs (nadd m tiny))] in
  (* the assertion on the shapes *)
  if negb (length y_pure =? length y_wrapper) then None
  else
    let flag_failed := ngt (py_any max_absolute_error) atol || ngt (py_any max_relative_error) rtol in
    Some (max_absolute_error, max_relative_error, ut_failed ++ [flag_failed]).
Definition check_forward_backward_results (rtol atol : num) (files : list (list num * list num)) : option bool :=
  ' (ma, mr, ut_failed) <- foldM (check_forward_backward_step rtol atol) files ([], [], []) ;;
  (* 78-81: both texts contain the largest error *)
  _ <- np_max ma ;;
  _ <- np_max mr ;;
  Some (negb (existsb (fun b => b) ut_failed)).
