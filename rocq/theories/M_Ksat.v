(** * Model: K-SAT message updates (C++).

    include/impalib/update_ksat_constraint.hpp:63-128 and
    include/impalib/update_equality_constraint.hpp:291-325. *)
From Verif Require Import Num Arr.
Local Open Scope nat_scope.

(** [row.assign(row.size(), zero_value)] for every row (update_ksat_constraint.hpp:66-68,
    update_equality_constraint.hpp:294-296) *)
Definition zero_rows (m : list (list num)) : list (list num) := map (map (fun _ => n0)) m.

(** [rVariableEc2KsatConstraintM[c][conx[stage]]*conx_type[stage]], the cost of making literal
    [stage] of the clause true.  The type is an [int] converted to [double]. *)
Definition lit_cost (row : list num) (conx : list nat) (types : list Z) (stage : nat) : option num :=
  v <- get conx stage ;;
  m <- get row v ;;
  t <- get types stage ;;
  Some (nmul m (zn t)).

(** update_ksat_constraint.hpp:81-90: forward recursion, [maxState_] = 1 *)
Definition ksat_forward (k : nat) (cost : nat -> option num) (tbl : list (list num))
  : option (list (list num)) :=
  tbl <- set tbl 0 [n0; PInf] ;;
  for_up 0 k tbl (fun tbl stage =>
    f0 <- get2 tbl stage 0 ;;
    tbl <- set2 tbl (stage + 1) 0 f0 ;;
    f1 <- get2 tbl stage 1 ;;
    f0 <- get2 tbl stage 0 ;;
    c <- cost stage ;;
    set2 tbl (stage + 1) 1 (nmin (nadd f1 (nmin n0 c)) (nadd f0 c))).

(** update_ksat_constraint.hpp:92-103: backward recursion *)
Definition ksat_backward (k : nat) (cost : nat -> option num) (tbl : list (list num))
  : option (list (list num)) :=
  tbl <- set tbl k [n0; n0] ;;
  for_down 0 k tbl (fun tbl stage =>
    c <- cost stage ;;
    tbl <- (if stage =? k - 1
            then set2 tbl stage 0 c
            else b0 <- get2 tbl (stage + 1) 0 ;;
                 b1 <- get2 tbl (stage + 1) 1 ;;
                 set2 tbl stage 0 (nmin b0 (nadd b1 c))) ;;
    b1 <- get2 tbl (stage + 1) 1 ;;
    set2 tbl stage 1 (nmin b1 (nadd b1 c))).

(** update_ksat_constraint.hpp:73-127, body of the loop over clauses.  The value of
    [min_solid_edges]/[min_dashed_edges] is recomputed at every stage, so they are local. *)
Definition ksat_one (k : nat) (msgs : list (list num)) (conns : list (list nat))
  (types : list (list Z))
  (st : list (list num) * list (list num) * list (list num)) (c : nat)
  : option (list (list num) * list (list num) * list (list num)) :=
  let '(fwd, bwd, out) := st in
  conx <- get conns c ;;
  conx_type <- get types c ;;
  let cost stage := row <- get msgs c ;; lit_cost row conx conx_type stage in
  fwd <- ksat_forward k cost fwd ;;
  bwd <- ksat_backward k cost bwd ;;
  out <- for_up 0 k out (fun out stage =>
    f0 <- get2 fwd stage 0 ;;
    f1 <- get2 fwd stage 1 ;;
    b1 <- get2 bwd (stage + 1) 1 ;;
    x <- cost stage ;;
    let solid := nmin (nadd (nadd f0 b1) x) (nadd (nadd f1 x) b1) in
    dashed <- (if stage =? k - 1 then Some (nadd f1 b1)
               else b0 <- get2 bwd (stage + 1) 0 ;;
                    Some (nmin (nadd f0 b0) (nadd f1 b1))) ;;
    t <- get conx_type stage ;;
    v <- get conx stage ;;
    let value := nmul (nsub (nsub solid dashed) x) (zn t) in
    old <- get2 out c v ;;
    if nlt (nabs old) (nabs value) then set2 out c v value else Some out) ;;
  Some (fwd, bwd, out).

(** update_ksat_constraint.hpp:63-128 *)
Definition ksat_update (num_constraints k : nat) (msgs out : list (list num))
  (conns : list (list nat)) (types : list (list Z)) : option (list (list num)) :=
  ' (_, _, out) <- for_up 0 num_constraints
      (repeat [n0; n0] (k + 1), repeat [n0; n0] (k + 1), zero_rows out)
      (ksat_one k msgs conns types) ;;
  Some out.

(** update_equality_constraint.hpp:291-325: variable to clause messages.  [var_conns] is
    [rVariablesConnections] (the clauses of each variable), [used] is [rUsedVariables]. *)
Definition variable_update (num_variables : nat) (ksat2eq out : list (list num))
  (used : list nat) (metrics : list num) (var_conns : list (list nat))
  : option (list (list num)) :=
  let out := zero_rows out in
  (* lines 298-302 *)
  used_metrics <- foldM (fun um n => m <- get metrics n ;; set um n m) used
                        (repeat n0 num_variables) ;;
  (* lines 304-311 *)
  sums <- for_up 0 num_variables (repeat n0 num_variables) (fun sums i =>
    conns <- get var_conns i ;;
    sums <- for_up 0 (length conns) sums (fun sums j =>
      c <- get conns j ;;
      m <- get2 ksat2eq c i ;;
      s <- get sums i ;;
      set sums i (nadd s m)) ;;
    s <- get sums i ;;
    u <- get used_metrics i ;;
    set sums i (nadd s u)) ;;
  (* lines 313-324 *)
  for_up 0 (length used) out (fun out iv =>
    v <- get used iv ;;
    conns <- get var_conns v ;;
    for_up 0 (length conns) out (fun out i =>
      c <- get conns i ;;
      old <- get2 out c v ;;
      s <- get sums v ;;
      m <- get2 ksat2eq c v ;;
      if nlt (nabs old) (nabs (nsub s m)) then set2 out c v (nsub s m) else Some out)).
