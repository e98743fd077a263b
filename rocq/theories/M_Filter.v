(** * Filtering of messages.

    The same code appears four times, once per constraint class; the bodies differ only in the
    names of the arrays.  [filter_row] is that body, the four functions follow it. *)
From Verif Require Import Num Arr.
Local Open Scope nat_scope.

(** Body shared by
    - knapsack.hpp:382-418 (one department),
    - update_degree_constraint.hpp:171-205 (one edge),
    - subtour_elimination_constraint.hpp:126-161 (one constraint),
    - update_ksat_constraint.hpp:141-159 (one clause).
    Arguments: row [i] of the unfiltered messages, of the remembered messages and of the output;
    result: new output row and new remembered row. *)
Definition filter_row (flag : bool) (alpha : num) (iter : nat) (dummy old out : list num)
  : option (list num * list num) :=
  if flag && negb (neqb alpha n0) then
    let w1 := alpha in
    let w2 := nsub n1 alpha in
    let d := map (fun c => nmul c w2) dummy in
    let o := map (fun c => nmul c w1) old in
    out <- (if iter =? 0 then copy_into d out
            else ext <- transform2 nadd d o d ;; copy_into ext out) ;;
    old <- copy_into out old ;;
    Some (out, old)
  else
    out <- copy_into dummy out ;;
    Some (out, old).

(** The same on row [i] of the three matrices.  knapsack.hpp:377-419
    [Knapsack::process_extrinsic_output_department] is this function with the department index. *)
Definition filter_at (flag : bool) (alpha : num) (iter i : nat) (dummy old out : list (list num))
  : option (list (list num) * list (list num)) :=
  d <- get dummy i ;;
  r <- get out i ;;
  (* [old[i]] is read only when filtering is on (knapsack.hpp:386, ...) *)
  if flag && negb (neqb alpha n0) then
    o <- get old i ;;
    ' (r, o) <- filter_row flag alpha iter d o r ;;
    out <- set out i r ;;
    old <- set old i o ;;
    Some (out, old)
  else
    ' (r, _) <- filter_row flag alpha iter d [] r ;;
    out <- set out i r ;;
    Some (out, old).

(** update_degree_constraint.hpp:166-207 [n] = number of edges;
    subtour_elimination_constraint.hpp:117-163 [n] = [rDeltaSIndicesList.size()];
    update_ksat_constraint.hpp:139-161 [n] = number of clauses. *)
Definition process_filtering (flag : bool) (alpha : num) (iter n : nat)
  (dummy old out : list (list num)) : option (list (list num) * list (list num)) :=
  for_up 0 n (out, old) (fun st i =>
    let '(out, old) := st in filter_at flag alpha iter i dummy old out).

(** A run: the raw matrices of iterations [iter], [iter+1], ... are filtered one after the other;
    [old] and [out] persist between iterations (they are members of the model object:
    graphical_model.hpp:316-321, 476-486, 941-950). *)
Fixpoint filter_run (flag : bool) (alpha : num) (n iter : nat) (raws : list (list (list num)))
  (old out : list (list num)) : option (list (list num) * list (list num)) :=
  match raws with
  | [] => Some (out, old)
  | dummy :: raws =>
      ' (out, old) <- process_filtering flag alpha iter n dummy old out ;;
      filter_run flag alpha n (S iter) raws old out
  end.
