(** * The solvers in floating-point arithmetic.

    The other model files compute with exact rationals.  Here every addition, subtraction and
    multiplication of the C++ code is followed by a rounding step [rnd], which may also overflow
    to an infinity.  The definitions are those of the other files, line by line, with the rounded
    operations in place of the exact ones; comparisons, minima, negation and copies need no
    rounding and are shared.  The operations are applied in the order of the C++ expressions
    (additions associate to the left), because rounded addition is not associative.

    Assumption: the compiler evaluates every operation in the type [impalib_type] (no extended
    precision, no fused multiply-add, no [-ffast-math]).  The sign of a zero is not modelled; the
    code only compares numbers. *)
From Verif Require Import Num Arr M_Equality M_Filter M_Ksat M_Kc_Trellis M_Knapsack M_InOut M_Runs
  M_Tsp_Constraints M_Tsp_Loops M_Tsp_Run M_Tsp_Py.
Local Open Scope nat_scope.

Section Rounded.

(** rounding of an exact result *)
Variable rnd : Qc -> num.

(** [a + b], [a - b] and [a * b] on [impalib_type] (common.hpp:40) *)
Definition fadd (a b : num) : num :=
  match a, b with
  | NaN, _ | _, NaN => NaN
  | Fin x, Fin y => rnd (x + y)%Qc
  | PInf, NInf | NInf, PInf => NaN
  | PInf, _ | _, PInf => PInf
  | NInf, _ | _, NInf => NInf
  end.
Definition fsub (a b : num) : num := fadd a (nopp b).
Definition fmul (a b : num) : num :=
  match a, b with
  | NaN, _ | _, NaN => NaN
  | Fin x, Fin y => rnd (x * y)%Qc
  | PInf, PInf | NInf, NInf => PInf
  | PInf, NInf | NInf, PInf => NInf
  | PInf, Fin x | Fin x, PInf => ninf_times x
  | NInf, Fin x | Fin x, NInf => nopp (ninf_times x)
  end.

(** ** M_Equality.v *)

(** [std::transform(a.begin(), a.end(), b.begin(), out.begin(), std::plus)] *)
Definition plus_into_f (a b out : list num) : option (list num) := transform2 fadd a b out.

(** update_equality_constraint.hpp:74-88 *)
Definition team_to_oric_update_f (num_teams : nat) (extrinsic_dept : list (list num))
  (team2oric reward_team : list num) : option (list num) :=
  inter <- for_up 0 (length extrinsic_dept) (repeat n0 num_teams) (fun inter d =>
    row <- get extrinsic_dept d ;; plus_into_f row inter inter) ;;
  plus_into_f inter reward_team team2oric.

(** update_equality_constraint.hpp:98-108 *)
Definition project_to_oric_update_f (project2eq eq2oric reward_project : list (list num))
  : option (list (list num)) :=
  for_up 0 (length project2eq) eq2oric (fun eq2oric p =>
    a <- get project2eq p ;;
    r <- get reward_project p ;;
    o <- get eq2oric p ;;
    o' <- plus_into_f a r o ;;
    set eq2oric p o').

(** update_equality_constraint.hpp:120-136 *)
Definition edge_to_degree_relaxed_f (num_edges : nat) (edges : list (nat * nat))
  (cost degree2eq out : list (list num)) : option (list (list num)) :=
  flipped <- flip_matrix degree2eq edges degree2eq ;;
  for_up 0 num_edges out (fun out e =>
    f <- get flipped e ;;
    c <- get cost e ;;
    o <- get out e ;;
    o' <- plus_into_f f c o ;;
    set out e o').

(** update_equality_constraint.hpp:182-188 and :235-240: sum of the subtour rows.  The first
    range is the accumulator. *)
Definition sum_rows_f (num_edges : nat) (rows : list (list num)) : option (list num) :=
  foldM (fun acc row => plus_into_f acc row acc) rows (repeat n0 num_edges).

(** update_equality_constraint.hpp:163-169 and :190-196 *)
Definition combined_degree_f (num_edges : nat) (edges : list (nat * nat)) (degree2eq : list (list num))
  : option (list num) :=
  for_up 0 num_edges (repeat n0 num_edges) (fun comb e =>
    ' (u, v) <- get edges e ;;
    a <- get2 degree2eq e u ;;
    b <- get2 degree2eq e v ;;
    set comb e (fadd a b)).

(** update_equality_constraint.hpp:151-216 *)
Definition edge_to_subtour_f (num_edges : nat) (deltas : list (list nat)) (cost : list num)
  (degree2eq subtour2edge : list (list num)) (edges : list (nat * nat))
  : option (list (list num)) :=
  if length deltas =? 1 then
    (* lines 159-178 *)
    comb <- combined_degree_f num_edges edges degree2eq ;;
    d <- get deltas 0 ;;
    row <- for_up 0 (length d) (repeat n0 num_edges) (fun row i =>
      e <- get d i ;;
      a <- get comb e ;;
      c <- get cost e ;;
      set row e (fadd a c)) ;;
    Some [row]
  else
    (* lines 180-214 *)
    subs <- sum_rows_f num_edges subtour2edge ;;
    comb <- combined_degree_f num_edges edges degree2eq ;;
    for_up 0 (length deltas) [] (fun acc s =>
      d <- get deltas s ;;
      row <- for_up 0 (length d) (repeat n0 num_edges) (fun row i =>
        e <- get d i ;;
        x <- get subs e ;;
        a <- get comb e ;;
        c <- get cost e ;;
        m <- get2 subtour2edge s e ;;
        set row e (fsub (fadd (fadd x a) c) m)) ;;
      Some (acc ++ [row])).

(** update_equality_constraint.hpp:229-255 *)
Definition edge_to_degree_augmented_f (num_edges : nat) (degree2eq subtour2edge : list (list num))
  (edges : list (nat * nat)) (cost out : list (list num)) : option (list (list num)) :=
  subs <- sum_rows_f num_edges subtour2edge ;;
  for_up 0 (length edges) out (fun out i =>
    ' (u, v) <- get edges i ;;
    s <- get subs i ;;
    dv <- get2 degree2eq i v ;;
    cu <- get2 cost i u ;;
    out <- set2 out i u (fadd (fadd s dv) cu) ;;
    du <- get2 degree2eq i u ;;
    cv <- get2 cost i v ;;
    set2 out i v (fadd (fadd s du) cv)).

(** ** M_Filter.v *)

(** Body shared by
    - knapsack.hpp:382-418 (one department),
    - update_degree_constraint.hpp:171-205 (one edge),
    - subtour_elimination_constraint.hpp:126-161 (one constraint),
    - update_ksat_constraint.hpp:141-159 (one clause).
    Arguments: row [i] of the unfiltered messages, of the remembered messages and of the output;
    result: new output row and new remembered row. *)
Definition filter_row_f (flag : bool) (alpha : num) (iter : nat) (dummy old out : list num)
  : option (list num * list num) :=
  if flag && negb (neqb alpha n0) then
    let w1 := alpha in
    let w2 := fsub n1 alpha in
    let d := map (fun c => fmul c w2) dummy in
    let o := map (fun c => fmul c w1) old in
    out <- (if iter =? 0 then copy_into d out
            else ext <- transform2 fadd d o d ;; copy_into ext out) ;;
    old <- copy_into out old ;;
    Some (out, old)
  else
    out <- copy_into dummy out ;;
    Some (out, old).

(** The same on row [i] of the three matrices.  knapsack.hpp:377-419
    [Knapsack::process_extrinsic_output_department] is this function with the department index. *)
Definition filter_at_f (flag : bool) (alpha : num) (iter i : nat) (dummy old out : list (list num))
  : option (list (list num) * list (list num)) :=
  d <- get dummy i ;;
  r <- get out i ;;
  (* [old[i]] is read only when filtering is on (knapsack.hpp:386, ...) *)
  if flag && negb (neqb alpha n0) then
    o <- get old i ;;
    ' (r, o) <- filter_row_f flag alpha iter d o r ;;
    out <- set out i r ;;
    old <- set old i o ;;
    Some (out, old)
  else
    ' (r, _) <- filter_row_f flag alpha iter d [] r ;;
    out <- set out i r ;;
    Some (out, old).

(** update_degree_constraint.hpp:166-207 [n] = number of edges;
    subtour_elimination_constraint.hpp:117-163 [n] = [rDeltaSIndicesList.size()];
    update_ksat_constraint.hpp:139-161 [n] = number of clauses. *)
Definition process_filtering_f (flag : bool) (alpha : num) (iter n : nat)
  (dummy old out : list (list num)) : option (list (list num) * list (list num)) :=
  for_up 0 n (out, old) (fun st i =>
    let '(out, old) := st in filter_at_f flag alpha iter i dummy old out).

(** ** M_Ksat.v *)

(** [rVariableEc2KsatConstraintM[c][conx[stage]]*conx_type[stage]], the cost of making literal
    [stage] of the clause true.  The type is an [int] converted to [double]. *)
Definition lit_cost_f (row : list num) (conx : list nat) (types : list Z) (stage : nat) : option num :=
  v <- get conx stage ;;
  m <- get row v ;;
  t <- get types stage ;;
  Some (fmul m (zn t)).

(** update_ksat_constraint.hpp:81-90: forward recursion, [maxState_] = 1 *)
Definition ksat_forward_f (k : nat) (cost : nat -> option num) (tbl : list (list num))
  : option (list (list num)) :=
  tbl <- set tbl 0 [n0; PInf] ;;
  for_up 0 k tbl (fun tbl stage =>
    f0 <- get2 tbl stage 0 ;;
    tbl <- set2 tbl (stage + 1) 0 f0 ;;
    f1 <- get2 tbl stage 1 ;;
    f0 <- get2 tbl stage 0 ;;
    c <- cost stage ;;
    set2 tbl (stage + 1) 1 (nmin (fadd f1 (nmin n0 c)) (fadd f0 c))).

(** update_ksat_constraint.hpp:92-103: backward recursion *)
Definition ksat_backward_f (k : nat) (cost : nat -> option num) (tbl : list (list num))
  : option (list (list num)) :=
  tbl <- set tbl k [n0; n0] ;;
  for_down 0 k tbl (fun tbl stage =>
    c <- cost stage ;;
    tbl <- (if stage =? k - 1
            then set2 tbl stage 0 c
            else b0 <- get2 tbl (stage + 1) 0 ;;
                 b1 <- get2 tbl (stage + 1) 1 ;;
                 set2 tbl stage 0 (nmin b0 (fadd b1 c))) ;;
    b1 <- get2 tbl (stage + 1) 1 ;;
    set2 tbl stage 1 (nmin b1 (fadd b1 c))).

(** update_ksat_constraint.hpp:73-127, body of the loop over clauses.  The value of
    [min_solid_edges]/[min_dashed_edges] is recomputed at every stage, so they are local. *)
Definition ksat_one_f (k : nat) (msgs : list (list num)) (conns : list (list nat))
  (types : list (list Z))
  (st : list (list num) * list (list num) * list (list num)) (c : nat)
  : option (list (list num) * list (list num) * list (list num)) :=
  let '(fwd, bwd, out) := st in
  conx <- get conns c ;;
  conx_type <- get types c ;;
  let cost stage := row <- get msgs c ;; lit_cost_f row conx conx_type stage in
  fwd <- ksat_forward_f k cost fwd ;;
  bwd <- ksat_backward_f k cost bwd ;;
  out <- for_up 0 k out (fun out stage =>
    f0 <- get2 fwd stage 0 ;;
    f1 <- get2 fwd stage 1 ;;
    b1 <- get2 bwd (stage + 1) 1 ;;
    x <- cost stage ;;
    let solid := nmin (fadd (fadd f0 b1) x) (fadd (fadd f1 x) b1) in
    dashed <- (if stage =? k - 1 then Some (fadd f1 b1)
               else b0 <- get2 bwd (stage + 1) 0 ;;
                    Some (nmin (fadd f0 b0) (fadd f1 b1))) ;;
    t <- get conx_type stage ;;
    v <- get conx stage ;;
    let value := fmul (fsub (fsub solid dashed) x) (zn t) in
    old <- get2 out c v ;;
    if nlt (nabs old) (nabs value) then set2 out c v value else Some out) ;;
  Some (fwd, bwd, out).

(** update_ksat_constraint.hpp:63-128 *)
Definition ksat_update_f (num_constraints k : nat) (msgs out : list (list num))
  (conns : list (list nat)) (types : list (list Z)) : option (list (list num)) :=
  ' (_, _, out) <- for_up 0 num_constraints
      (repeat [n0; n0] (k + 1), repeat [n0; n0] (k + 1), zero_rows out)
      (ksat_one_f k msgs conns types) ;;
  Some out.

(** update_equality_constraint.hpp:291-325: variable to clause messages.  [var_conns] is
    [rVariablesConnections] (the clauses of each variable), [used] is [rUsedVariables]. *)
Definition variable_update_f (num_variables : nat) (ksat2eq out : list (list num))
  (used : list nat) (metrics : list num) (var_conns : list (list nat))
  : option (list (list num)) :=
  let out := zero_rows out in
  (* lines 298-302 *)
  used_metrics <- foldM (fun um n => m <- get metrics n ;; set um n m) used
                        (repeat n0 num_variables) ;;
  (* lines 304-311 *)
  sums <- for_up 0 num_variables (repeat n0 num_variables) (fun sums i =>
    conns <- get var_conns i ;;
    sums <- for_up 0 (length conns) sums (fun sums j =>
      c <- get conns j ;;
      m <- get2 ksat2eq c i ;;
      s <- get sums i ;;
      set sums i (fadd s m)) ;;
    s <- get sums i ;;
    u <- get used_metrics i ;;
    set sums i (fadd s u)) ;;
  (* lines 313-324 *)
  for_up 0 (length used) out (fun out iv =>
    v <- get used iv ;;
    conns <- get var_conns v ;;
    for_up 0 (length conns) out (fun out i =>
      c <- get conns i ;;
      old <- get2 out c v ;;
      s <- get sums v ;;
      m <- get2 ksat2eq c v ;;
      if nlt (nabs old) (nabs (fsub s m)) then set2 out c v (fsub s m) else Some out)).

(** ** M_Kc_Trellis.v *)

(** project_inequality_constraint.hpp:54-89, body of the loop over projects *)
Definition project_one_f (num_teams : nat) (msgs : list (list num))
  (st : list (list num) * list (list num) * list (list num)) (p : nat)
  : option (list (list num) * list (list num) * list (list num)) :=
  let '(fwd, bwd, out) := st in
  let step stage x := m <- get2 msgs p stage ;; Some (fadd x m) in
  fwd <- ic_forward num_teams step fwd ;;
  bwd <- ic_backward num_teams step bwd ;;
  out <- for_up 0 num_teams out (fun out t =>
    a <- get2 fwd t 1 ;;
    b <- get2 bwd (t + 1) 0 ;;
    set2 out p t (nopp (nmin (nmin a b) n0))) ;;
  Some (fwd, bwd, out).

(** project_inequality_constraint.hpp:45-90 *)
Definition project_update_f (num_teams : nat) (msgs out : list (list num))
  : option (list (list num)) :=
  ' (_, _, out) <- for_up 0 (length out)
      (repeat [n0; n0] (num_teams + 1), repeat [n0; n0] (num_teams + 1), out)
      (project_one_f num_teams msgs) ;;
  Some out.

(** update_or_inequality_constraint.hpp:67-109, body of the loop over teams; the state is the
    two stage tables and the two output matrices. *)
Definition oric_one_f (num_projects : nat) (eq2oric : list (list num)) (team2oric : list num)
  (reward : list (list num))
  (st : list (list num) * list (list num) * list (list num) * list (list num)) (t : nat)
  : option (list (list num) * list (list num) * list (list num) * list (list num)) :=
  let '(fwd, bwd, oric2eq, eq2project) := st in
  let step stage x := e <- get2 eq2oric stage t ;; m <- get team2oric t ;;
                      Some (fadd (fadd x e) m) in
  fwd <- ic_forward num_projects step fwd ;;
  bwd <- ic_backward num_projects step bwd ;;
  ' (oric2eq, eq2project) <- for_up 0 num_projects (oric2eq, eq2project) (fun st p =>
    let '(oric2eq, eq2project) := st in
    a <- get2 fwd p 1 ;;
    b <- get2 bwd (p + 1) 0 ;;
    m <- get team2oric t ;;
    oric2eq <- set2 oric2eq p t (fsub m (nmin (nmin a b) n0)) ;;
    v <- get2 oric2eq p t ;;
    r <- get2 reward p t ;;
    eq2project <- set2 eq2project p t (fadd v r) ;;
    Some (oric2eq, eq2project)) ;;
  Some (fwd, bwd, oric2eq, eq2project).

(** update_or_inequality_constraint.hpp:56-110 *)
Definition oric_to_project_update_f (num_projects num_teams : nat) (eq2oric : list (list num))
  (team2oric : list num) (oric2eq eq2project reward : list (list num))
  : option (list (list num) * list (list num)) :=
  ' (_, _, oric2eq, eq2project) <- for_up 0 num_teams
      (repeat [n0; n0] (num_projects + 1), repeat [n0; n0] (num_projects + 1),
       oric2eq, eq2project)
      (oric_one_f num_projects eq2oric team2oric reward) ;;
  Some (oric2eq, eq2project).

(** ** M_Knapsack.v *)

(** knapsack.hpp:102-117: one stage of the forward trellis *)
Definition fwd_stage_f (cap t w : nat) (m : num) (init : list num) (tbl : list (list num))
  : option (list (list num)) :=
  for_up 0 (cap + 1) tbl (fun tbl a =>
    if (w <=? a) && negb ((t =? 0) && negb (a =? w)) then
      x <- get init a ;;
      y <- get init (a - w) ;;
      set2 tbl (t + 1) a (nmin x (fadd y m))
    else
      x <- get init a ;;
      set2 tbl (t + 1) a x).

(** knapsack.hpp:76-148 *)
Definition forward_f (num_teams cap : nat) (nz : list nat) (size : nat) (weights : list nat)
  (msgs : list num) (tbl : list (list num)) : option (list (list num)) :=
  (* lines 84-97 *)
  let init := n0 :: repeat PInf cap in
  tbl <- set tbl 0 init ;;
  z0 <- get nz 0 ;;
  tbl <- (if z0 =? 0 then Some tbl
          else for_up 0 z0 tbl (fun tbl j => set tbl (j + 1) init)) ;;
  (* lines 99-147 *)
  ' (tbl, _) <- for_up 0 size (tbl, init) (fun st l =>
    let '(tbl, init) := st in
    t <- get nz l ;;
    w <- get weights t ;;
    m <- get msgs t ;;
    tbl <- fwd_stage_f cap t w m init tbl ;;
    init <- get tbl (t + 1) ;;
    tbl <- (if length nz =? num_teams then Some tbl
            else found <- binary_search nz (t + 1) ;;
                 if found then Some tbl
                 else last <- back nz ;;
                      if (last <=? t + 1) && (t + 1 <? num_teams) then
                        for_up (t + 1) num_teams tbl (fun tbl j => set tbl (j + 1) init)
                      else if t + 1 <? last then
                        next <- upper_bound nz t ;;
                        z <- get nz next ;;
                        for_up (t + 1) z tbl (fun tbl j => set tbl (j + 1) init)
                      else Some tbl) ;;
    Some (tbl, init)) ;;
  Some tbl.

(** knapsack.hpp:190-205: one stage of the backward trellis *)
Definition bwd_stage_f (cap t w : nat) (m : num) (init : list num) (tbl : list (list num))
  : option (list (list num)) :=
  for_up 0 (cap + 1) tbl (fun tbl a =>
    if ((0 <? t) && (a + w <=? cap)) || ((a =? 0) && (t =? 0)) then
      x <- get init a ;;
      y <- get init (a + w) ;;
      set2 tbl t a (nmin x (fadd y m))
    else
      x <- get init a ;;
      set2 tbl t a x).

(** knapsack.hpp:163-236.  [for (j = hi; j > lo; j--)] is [for_down (lo+1) (hi+1)].  With
    [t = 0] the code searches for [t - 1 = -1], does not find it, and neither branch of lines
    216 and 223 is taken. *)
Definition backward_f (num_teams cap : nat) (nz : list nat) (size : nat) (weights : list nat)
  (msgs : list num) (tbl : list (list num)) : option (list (list num)) :=
  (* lines 172-185; [size - 1] underflows to -1 and then indexes out of range *)
  let init := repeat n0 (cap + 1) in
  tbl <- set tbl num_teams init ;;
  zl <- match size with O => None | S k => get nz k end ;;
  tbl <- (if zl + 1 =? num_teams then Some tbl
          else z0 <- get nz 0 ;;
               for_down (z0 + 1) num_teams tbl (fun tbl j => set tbl j init)) ;;
  (* lines 187-235 *)
  ' (tbl, _) <- for_down 0 size (tbl, init) (fun st l =>
    let '(tbl, init) := st in
    t <- get nz l ;;
    w <- get weights t ;;
    m <- get msgs t ;;
    tbl <- bwd_stage_f cap t w m init tbl ;;
    init <- get tbl t ;;
    tbl <- (if size - 1 =? num_teams then Some tbl
            else match t with
                 | O => Some tbl
                 | S t1 =>
                     found <- binary_search nz t1 ;;
                     if found then Some tbl
                     else z0 <- get nz 0 ;;
                          if t1 <=? z0 then
                            for_down 0 (t1 + 1) tbl (fun tbl j => set tbl j init)
                          else
                            next <- upper_bound nz t1 ;;
                            zp <- match next with O => None | S p => get nz p end ;;
                            for_down (zp + 1) (t1 + 1) tbl (fun tbl j => set tbl j init)
                 end) ;;
    Some (tbl, init)) ;;
  Some tbl.

(** knapsack.hpp:271-295: the two lists of path metrics of one team *)
Definition path_metrics_f (cap t w : nat) (m : num) (fwd bwd : list (list num))
  : option (list num * list num) :=
  if t =? 0 then
    f <- get2 fwd t t ;;
    b <- get2 bwd (t + 1) w ;;
    b0 <- get2 bwd (t + 1) 0 ;;
    Some ([fadd (fadd f b) m], [fadd f b0])
  else
    for_up 0 (cap + 1) ([], []) (fun st i =>
      let '(solid, dash) := st in
      solid <- (if i + w <=? cap then
                  f <- get2 fwd t i ;;
                  b <- get2 bwd (t + 1) (i + w) ;;
                  Some (solid ++ [fadd (fadd f b) m])
                else Some solid) ;;
      f <- get2 fwd t i ;;
      b <- get2 bwd (t + 1) i ;;
      Some (solid, dash ++ [fadd f b])).

(** knapsack.hpp:251-307; [out] is the row of the department *)
Definition extrinsic_row_f (cap : nat) (weights : list nat) (msgs : list num)
  (fwd bwd : list (list num)) (out : list num) : option (list num) :=
  for_up 0 (length weights) out (fun out t =>
    w <- get weights t ;;
    if w =? 0 then set out t n0
    else
      m <- get msgs t ;;
      ' (solid, dash) <- path_metrics_f cap t w m fwd bwd ;;
      s <- min_element solid ;;
      d <- min_element dash ;;
      set out t (fsub (fsub s d) m)).

(** One department of graphical_model.hpp:142-171 (GraphicalModelKcMwm::iterate): fresh stage
    tables, forward, backward, extrinsic row. *)
Definition department_update_f (num_teams cap : nat) (nz : list nat) (size : nat)
  (weights : list nat) (msgs : list num) (out : list num) : option (list num) :=
  let tbl := repeat (repeat n0 (cap + 1)) (num_teams + 1) in
  fwd <- forward_f num_teams cap nz size weights msgs tbl ;;
  bwd <- backward_f num_teams cap nz size weights msgs tbl ;;
  extrinsic_row_f cap weights msgs fwd bwd out.

(** knapsack.hpp:335-357: one other department [t] *)
Definition share_department_f (num_teams d : nat) (nzs : list (list nat)) (reward oric : list num)
  (extr : list (list num)) (st : list (list num) * list nat) (t : nat)
  : option (list (list num) * list nat) :=
  let '(t2k, unique) := st in
  a <- get nzs d ;;
  b <- get nzs t ;;
  inter <- set_intersection a b ;;
  (* the output range has [num_teams] elements *)
  _ <- (if length inter <=? num_teams then Some tt else None) ;;
  foldM (fun st l =>
    let '(t2k, unique) := st in
    r <- get reward l ;;
    e <- get2 extr t l ;;
    o <- get oric l ;;
    t2k <- set2 t2k d l (fadd (fadd r e) o) ;;
    unique <- find_erase unique l ;;
    Some (t2k, unique)) inter (t2k, unique).

(** knapsack.hpp:320-365 *)
Definition team_to_knapsack_f (num_departments num_teams : nat) (nzs : list (list nat))
  (t2k : list (list num)) (reward : list num) (extr : list (list num)) (oric : list num)
  : option (list (list num)) :=
  for_up 0 (length extr) t2k (fun t2k d =>
    unique <- get nzs d ;;
    remaining <- erase_at (seq 0 num_departments) d ;;
    ' (t2k, unique) <- foldM (share_department_f num_teams d nzs reward oric extr)
                             remaining (t2k, unique) ;;
    foldM (fun t2k u =>
      r <- get reward u ;;
      o <- get oric u ;;
      set2 t2k d u (fadd r o)) unique t2k).

(** ** M_InOut.v *)

(** input_output.hpp:138-145 [OutputsKcMwm::intrinsic_out_mwm_update]; the C++ index is
    [p + t + p*(T-1)] on [int]; the body only runs when [T >= 1]. *)
Definition intrinsic_out_mwm_f (T : nat) (oric2eq project2eq reward_project : list (list num))
  (out : list num) : option (list num) :=
  for_up 0 (length reward_project) out (fun out p =>
    row <- get reward_project p ;;
    for_up 0 (length row) out (fun out t =>
      a <- get2 oric2eq p t ;;
      b <- get2 project2eq p t ;;
      c <- get row t ;;
      set out (p + t + p * (T - 1)) (fadd (fadd a b) c))).

(** input_output.hpp:155-162 [OutputsKcMwm::extrinsic_output_team_update] *)
Definition extrinsic_output_team_f (extr : list (list num)) (oric2team out : list num)
  : option (list num) :=
  out <- copy_into oric2team out ;;
  foldM (fun out row => transform2 fadd row out out) extr out.

(** input_output.hpp:272-276: [accumulate(row, zero_value)] adds from the left *)
Definition accumulate_f (row : list num) : num := fold_left fadd row n0.

Definition extrinsic_relaxed_f (m : list (list num)) (out : list num) : option (list num) :=
  for_up 0 (length m) out (fun out e => r <- get m e ;; set out e (accumulate_f r)).

(** input_output.hpp:286-295 *)
Definition extrinsic_augmented_f (m sub : list (list num)) (out : list num) : option (list num) :=
  out <- extrinsic_relaxed_f m out ;;
  foldM (fun out row => transform2 fadd row out out) sub out.

(** input_output.hpp:304-306: [transform(extrinsic, cost, intrinsic.begin(), plus)] *)
Definition intrinsic_output_f (extr cost out : list num) : option (list num) :=
  transform2 fadd extr cost out.

(** input_output.hpp:437-445 [OutputsKsat::update_extrinsic]; note the [+=] *)
Definition ksat_update_extrinsic_f (nv nc : nat) (m : list (list num)) (out : list num)
  : option (list num) :=
  for_up 0 nv out (fun out i =>
    for_up 0 nc out (fun out j =>
      o <- get out i ;; x <- get2 m j i ;; set out i (fadd o x))).

(** ** M_Runs.v *)

(** graphical_model.hpp:144-160: one department.  [sizes] is the array passed by Python. *)
Definition kc_department_f (flag : bool) (alpha : num) (T : nat) (inp : kc_inputs) (sizes : list nat)
  (t2k : list (list num)) (iter : nat)
  (st : list (list num) * list (list num) * list (list num)) (d : nat)
  : option (list (list num) * list (list num) * list (list num)) :=
  let '(dummy, old, extr) := st in
  cap <- get (kc_max_state inp) d ;;
  nz <- get (kc_nonzero inp) d ;;
  size <- get sizes d ;;
  ws <- get (kc_weights inp) d ;;
  ms <- get t2k d ;;
  row <- get dummy d ;;
  row <- department_update_f T cap nz size ws ms row ;;
  dummy <- set dummy d row ;;
  ' (extr, old) <- filter_at_f flag alpha iter d dummy old extr ;;
  Some (dummy, old, extr).

(** graphical_model.hpp:143-169: one iteration *)
Definition kc_step_f (flag : bool) (alpha : num) (T D P : nat) (inp : kc_inputs) (sizes : list nat)
  (st : kc_state) (iter : nat) : option kc_state :=
  ' (dummy, old, extr) <- for_up 0 D (kc_dummy st, kc_extr_old st, kc_extr st)
      (kc_department_f flag alpha T inp sizes (kc_t2k st) iter) ;;
  team2oric <- team_to_oric_update_f T extr (kc_team2oric st) (kc_reward_team inp) ;;
  ' (oric2eq, eq2project) <- oric_to_project_update_f P T (kc_eq2oric st) team2oric
      (kc_oric2eq st) (kc_eq2project st) (kc_reward_project inp) ;;
  project2eq <- project_update_f T eq2project (kc_project2eq st) ;;
  eq2oric <- project_to_oric_update_f project2eq (kc_eq2oric st) (kc_reward_project inp) ;;
  oric2team <- oric_to_team_update eq2oric (kc_oric2team st) ;;
  intrinsic <- intrinsic_out_mwm_f T oric2eq project2eq (kc_reward_project inp) (kc_intrinsic st) ;;
  t2k <- team_to_knapsack_f D T (kc_nonzero inp) (kc_t2k st) (kc_reward_team inp) extr oric2team ;;
  Some {| kc_t2k := t2k; kc_dummy := dummy; kc_extr_old := old; kc_extr := extr;
          kc_team2oric := team2oric; kc_oric2team := oric2team; kc_eq2oric := eq2oric;
          kc_oric2eq := oric2eq; kc_eq2project := eq2project; kc_project2eq := project2eq;
          kc_intrinsic := intrinsic |}.

(** graphical_model.hpp:142-171 [GraphicalModelKcMwm::iterate]; the result is the final state and
    [outputs.ExtrinsicOutputTeam] *)
Definition kc_iterate_f (flag : bool) (alpha : num) (T D P iters : nat) (inp : kc_inputs)
  (sizes : list nat) : option (kc_state * list num) :=
  st <- for_up 0 iters (kc_init T D P (kc_team2knapsack inp)) (kc_step_f flag alpha T D P inp sizes) ;;
  ext <- extrinsic_output_team_f (kc_extr st) (kc_oric2team st) (repeat n0 T) ;;
  Some (st, ext).

(** Wrapper.cpp:30-49 [WrapperKcMwm], called as in Impa.py:1518-1565 and :1430-1516 with the
    flattened arrays; the result is (extrinsic output of teams, intrinsic output of pairs). *)
Definition wrapper_kc_mwm_f (iters D T P : nat) (transition : list num) (max_state : list nat)
  (reward_team reward_project : list num) (weights nonzero sizes : list nat) (maxsz : nat)
  (flag : bool) (alpha : num) : option (list num * list num) :=
  inp <- kc_process_inputs T D P maxsz reward_team transition weights sizes nonzero reward_project
           max_state ;;
  ' (st, ext) <- kc_iterate_f flag alpha T D P iters inp sizes ;;
  Some (ext, kc_intrinsic st).

(** graphical_model.hpp:941-950 *)
Definition ksat_step_f (flag : bool) (alpha : num) (nv nc k : nat) (inp : ksat_inputs)
  (st : ksat_state) (iter : nat) : option ksat_state :=
  dummy <- ksat_update_f nc k (kst_var st) (kst_dummy st) (ks_conx inp) (ks_type inp) ;;
  ' (msg, old) <- process_filtering_f flag alpha iter nc dummy (kst_old st) (kst_msg st) ;;
  var <- variable_update_f nv msg (kst_var st) (ks_used inp) (ks_metrics inp) (ks_varconx inp) ;;
  Some {| kst_var := var; kst_dummy := dummy; kst_old := old; kst_msg := msg |}.

(** graphical_model.hpp:940-953 [GraphicalModelKsat::iterate] *)
Definition ksat_iterate_f (flag : bool) (alpha : num) (nv nc k iters : nat) (inp : ksat_inputs)
  : option (ksat_state * list num) :=
  st <- for_up 0 iters (ksat_init nv nc (ks_var2clause inp)) (ksat_step_f flag alpha nv nc k inp) ;;
  ext <- ksat_update_extrinsic_f nv nc (kst_msg st) (repeat n0 nv) ;;
  Some (st, ext).

(** Wrapper.cpp:127-145 [WrapperKsat] *)
Definition wrapper_ksat_f (iters nv nc nused : nat) (alpha : num) (flag : bool)
  (used varconx sizes conx : list nat) (types : list Z) (metrics var2clause : list num) (k : nat)
  : option (list num) :=
  inp <- ksat_process_inputs nv nc k nused used varconx sizes conx types metrics var2clause ;;
  ' (_, ext) <- ksat_iterate_f flag alpha nv nc k iters inp ;;
  Some ext.

(** ** M_Tsp_Run.v *)

(** graphical_model.hpp:598-604 *)
Definition selection_cost_f (hd : list bool) (cost : list num) : option num :=
  for_up 0 (length hd) n0 (fun acc i =>
    h <- get hd i ;;
    if (h : bool) then c <- get cost i ;; Some (fadd acc c) else Some acc).

(** ** Relaxed model: graphical_model.hpp:316-321 *)
Definition relaxed_step_f (p : tsp_params) (m : tsp_msgs) (iter : nat) : option tsp_msgs :=
  dummy <- degree_update (p_n p) (p_e p) (tsp_edges (p_in p)) (m_e2d m) (m_deg_dummy m) ;;
  ' (deg, old) <- process_filtering_f (p_filt p) (p_alpha p) iter (p_e p) dummy (m_deg_old m) (m_deg m) ;;
  e2d <- edge_to_degree_relaxed_f (p_e p) (tsp_edges (p_in p)) (tsp_degree_cost (p_in p)) deg (m_e2d m) ;;
  Some {| m_e2d := e2d; m_deg_dummy := dummy; m_deg_old := old; m_deg := deg;
          m_sub_dummy := m_sub_dummy m; m_sub_old := m_sub_old m; m_sub := m_sub m |}.

(** graphical_model.hpp:316-335 [iterate_relaxed_graph] *)
Definition iterate_relaxed_f (p : tsp_params) (st : tsp_state) : option tsp_state :=
  m <- for_up 0 (p_iters p) (t_msgs st) (relaxed_step_f p) ;;
  extr <- extrinsic_relaxed_f (m_deg m) (r_extr (t_sol st)) ;;
  intr <- intrinsic_output_f extr (tsp_cost_edge (p_in p)) (r_intr (t_sol st)) ;;
  let hd := hard_decision (p_thr p) intr in
  sel <- select_edges (p_e p) hd (tsp_edges (p_in p)) ;;
  cost <- selection_cost_f hd (tsp_cost_edge (p_in p)) ;;
  a <- analyse p sel (t_an st) ;;
  Some {| t_msgs := m;
          t_sol := {| r_extr := extr; r_intr := intr; r_selected := sel; r_cost := cost |};
          t_an := a; t_cnt := t_cnt st |}.

(** graphical_model.hpp:476-488 *)
Definition augmented_step_f (p : tsp_params) (deltas : list (list nat)) (m : tsp_msgs) (iter : nat)
  : option tsp_msgs :=
  let E := tsp_edges (p_in p) in
  dummy <- degree_update (p_n p) (p_e p) E (m_e2d m) (m_deg_dummy m) ;;
  ' (deg, old) <- process_filtering_f (p_filt p) (p_alpha p) iter (p_e p) dummy (m_deg_old m) (m_deg m) ;;
  e2s <- edge_to_subtour_f (p_e p) deltas (tsp_cost_edge (p_in p)) deg (m_sub m) E ;;
  sdummy <- subtour_update (p_e p) deltas e2s (m_sub_dummy m) ;;
  ' (sub, sold) <- process_filtering_f (p_filt p) (p_alpha p) iter (length deltas) sdummy
                     (m_sub_old m) (m_sub m) ;;
  e2d <- edge_to_degree_augmented_f (p_e p) deg sub E (tsp_degree_cost (p_in p)) (m_e2d m) ;;
  Some {| m_e2d := e2d; m_deg_dummy := dummy; m_deg_old := old; m_deg := deg;
          m_sub_dummy := sdummy; m_sub_old := sold; m_sub := sub |}.

(** graphical_model.hpp:448-549 [iterate_augmented_graph]; [exit(0)] at 501-504 when a message is
    NaN *)
Definition iterate_augmented_f (p : tsp_params) (st : tsp_state) : option outcome :=
  let E := tsp_edges (p_in p) in
  let m := t_msgs st in
  let deltas := a_deltas (t_an st) in
  e2d <- (if p_reset p then reset_messages E (tsp_cost_matrix (p_in p)) (m_e2d m)
          else Some (m_e2d m)) ;;
  let m := {| m_e2d := e2d; m_deg_dummy := m_deg_dummy m; m_deg_old := m_deg_old m; m_deg := m_deg m;
              m_sub_dummy := m_sub_dummy m;
              m_sub_old := m_sub_old m ++ zeros (length deltas) (p_e p); m_sub := m_sub m |} in
  m <- for_up 0 (p_iters p) m (augmented_step_f p deltas) ;;
  if existsb (existsb is_nan) (m_e2d m) then Some Exited else
  extr <- extrinsic_augmented_f (m_deg m) (m_sub m) (r_extr (t_sol st)) ;;
  intr <- intrinsic_output_f extr (tsp_cost_edge (p_in p)) (r_intr (t_sol st)) ;;
  let hd := hard_decision (p_thr p) intr in
  sel <- select_edges (p_e p) hd E ;;
  cost <- selection_cost_f hd (tsp_cost_edge (p_in p)) ;;
  let c := update_counts (p_max_count p) sel (t_cnt st) in
  a <- analyse p sel (t_an st) ;;
  Some (Returned
    {| t_msgs := m;
       t_sol := {| r_extr := extr; r_intr := intr; r_selected := sel; r_cost := cost |};
       t_an := a;
       t_cnt := {| c_old := c_old c; c_oldold := c_oldold c; c_noimp := c_noimp c; c_osc := c_osc c;
                   c_noimp_flag := c_noimp_flag c; c_osc_flag := c_osc_flag c;
                   c_num_aug := c_num_aug (t_cnt st) + 1 |} |}).

(** graphical_model.hpp:356-383: the [while] loop, at most [fuel] rounds *)
Fixpoint augmentation_loop_f (fuel : nat) (p : tsp_params) (max_augm : Z) (st : tsp_state)
  : option outcome :=
  if negb (a_satisfied (t_an st)) && p_aug p && negb (a_tour_flag (t_an st)) then
    if a_nocons_flag (t_an st) || c_noimp_flag (t_cnt st) || c_osc_flag (t_cnt st)
    then Some (Returned st)
    else if neqb (r_cost (t_sol st)) n0 then Some Exited
    else match fuel with
         | O => Some (Running st)
         | S fuel =>
             o <- iterate_augmented_f p st ;;
             match o with
             | Returned st =>
                 if (Z.of_nat (c_num_aug (t_cnt st)) =? max_augm)%Z then Some (Returned st) else
                 let have := length (m_sub (t_msgs st)) in
                 let want := length (a_deltas (t_an st)) in
                 let st := if have =? want then st
                           else set_msgs st (extend_sub (want - have) (p_e p) (t_msgs st)) in
                 augmentation_loop_f fuel p max_augm st
             | o => Some o
             end
         end
  else Some (Returned st).

(** graphical_model.hpp:347-384 [perform_augmentation] *)
Definition perform_augmentation_f (fuel : nat) (p : tsp_params) (max_augm : Z) (st : tsp_state)
  : option outcome :=
  let k := length (a_deltas (t_an st)) in
  let st := if 0 <? k then set_msgs st (extend_sub k (p_e p) (t_msgs st)) else st in
  augmentation_loop_f fuel p max_augm st.

(** Wrapper.cpp:89-105 without the copying of arguments and results *)
Definition tsp_solve_f (fuel : nat) (p : tsp_params) (max_augm : Z) : option outcome :=
  st <- iterate_relaxed_f p (tsp_init p) ;;
  if negb (a_satisfied (t_an st)) && p_aug p then perform_augmentation_f fuel p max_augm st
  else Some (Returned st).

(** ** M_Tsp_Py.v *)

(** Wrapper.cpp:82-107 [WrapperTsp]; the loop in [perform_augmentation] runs at most [fuel] rounds *)
Definition wrapper_tsp_f (fuel iters n e : nat) (aug reset filt : bool) (alpha : num)
  (edges : list nat) (cost_edge cm e2d dc bextr : list num) (thr : num)
  (btour bedges bpaths bsizes : list nat) (max_count max_augm : Z) (ord : list nat -> list nat)
  : option call_result :=
  inp <- tsp_process_inputs n e edges cost_edge cm e2d dc ;;
  let p := call_params iters n e aug reset filt alpha thr max_count inp ord in
  o <- tsp_solve_f fuel p max_augm ;;
  match o with
  | Returned st =>
      r <- process_outputs p st bextr btour bedges bpaths bsizes ;; Some (Done r)
  | Exited => Some Killed
  | Running _ => Some Unfinished
  end.

(** Impa.py:107-177 [initialize] with a given cost matrix, 206-253 [run_impa] and 278-330
    [process_inputs_ctypes]: buffers have [n + 1] (136), [comb(n, 2)] (138), [n ** 2] (139) and
    [n ** 2] (321) integers and [num_edge_variables] numbers (303).  The same array is used for
    initial messages and degree costs (174-176); both are copied by [flatten]. *)
Definition py_run_tsp_f (fuel : nat) (o : tsp_options) (n : nat) (cm : list (list num))
  (ord : list nat -> list nat) : option call_result :=
  let E := py_edges cm in
  let e := py_num_edges n in
  ' (cost_edge, m) <- py_tsp_arrays n cm E ;;
  wrapper_tsp_f fuel (q_iters o) n e (q_aug o) (q_reset o) (q_filt o) (q_alpha o)
    (flat_edges E) cost_edge (concat cm) (concat m) (concat m) (repeat n0 e) (q_thr o)
    (repeat 0 (n + 1)) (repeat 0 (n * (n - 1) / 2)) (repeat 0 (n * n)) (repeat 0 (n * n))
    (q_max_count o) (q_max_augm o) ord.


End Rounded.

(** Without rounding these are the definitions of the other files. *)
Lemma fadd_exact : fadd Fin = nadd. Proof. reflexivity. Qed.
Lemma fsub_exact : fsub Fin = nsub. Proof. reflexivity. Qed.
Lemma fmul_exact : fmul Fin = nmul. Proof. reflexivity. Qed.
Lemma plus_into_exact : plus_into_f Fin = plus_into. Proof. reflexivity. Qed.
Lemma team_to_oric_update_exact : team_to_oric_update_f Fin = team_to_oric_update. Proof. reflexivity. Qed.
Lemma project_to_oric_update_exact : project_to_oric_update_f Fin = project_to_oric_update. Proof. reflexivity. Qed.
Lemma edge_to_degree_relaxed_exact : edge_to_degree_relaxed_f Fin = edge_to_degree_relaxed. Proof. reflexivity. Qed.
Lemma sum_rows_exact : sum_rows_f Fin = sum_rows. Proof. reflexivity. Qed.
Lemma combined_degree_exact : combined_degree_f Fin = combined_degree. Proof. reflexivity. Qed.
Lemma edge_to_subtour_exact : edge_to_subtour_f Fin = edge_to_subtour. Proof. reflexivity. Qed.
Lemma edge_to_degree_augmented_exact : edge_to_degree_augmented_f Fin = edge_to_degree_augmented. Proof. reflexivity. Qed.
Lemma filter_row_exact : filter_row_f Fin = filter_row. Proof. reflexivity. Qed.
Lemma filter_at_exact : filter_at_f Fin = filter_at. Proof. reflexivity. Qed.
Lemma process_filtering_exact : process_filtering_f Fin = process_filtering. Proof. reflexivity. Qed.
Lemma lit_cost_exact : lit_cost_f Fin = lit_cost. Proof. reflexivity. Qed.
Lemma ksat_forward_exact : ksat_forward_f Fin = ksat_forward. Proof. reflexivity. Qed.
Lemma ksat_backward_exact : ksat_backward_f Fin = ksat_backward. Proof. reflexivity. Qed.
Lemma ksat_one_exact : ksat_one_f Fin = ksat_one. Proof. reflexivity. Qed.
Lemma ksat_update_exact : ksat_update_f Fin = ksat_update. Proof. reflexivity. Qed.
Lemma variable_update_exact : variable_update_f Fin = variable_update. Proof. reflexivity. Qed.
Lemma project_one_exact : project_one_f Fin = project_one. Proof. reflexivity. Qed.
Lemma project_update_exact : project_update_f Fin = project_update. Proof. reflexivity. Qed.
Lemma oric_one_exact : oric_one_f Fin = oric_one. Proof. reflexivity. Qed.
Lemma oric_to_project_update_exact : oric_to_project_update_f Fin = oric_to_project_update. Proof. reflexivity. Qed.
Lemma fwd_stage_exact : fwd_stage_f Fin = fwd_stage. Proof. reflexivity. Qed.
Lemma forward_exact : forward_f Fin = forward. Proof. reflexivity. Qed.
Lemma bwd_stage_exact : bwd_stage_f Fin = bwd_stage. Proof. reflexivity. Qed.
Lemma backward_exact : backward_f Fin = backward. Proof. reflexivity. Qed.
Lemma path_metrics_exact : path_metrics_f Fin = path_metrics. Proof. reflexivity. Qed.
Lemma extrinsic_row_exact : extrinsic_row_f Fin = extrinsic_row. Proof. reflexivity. Qed.
Lemma department_update_exact : department_update_f Fin = department_update. Proof. reflexivity. Qed.
Lemma share_department_exact : share_department_f Fin = share_department. Proof. reflexivity. Qed.
Lemma team_to_knapsack_exact : team_to_knapsack_f Fin = team_to_knapsack. Proof. reflexivity. Qed.
Lemma intrinsic_out_mwm_exact : intrinsic_out_mwm_f Fin = intrinsic_out_mwm. Proof. reflexivity. Qed.
Lemma extrinsic_output_team_exact : extrinsic_output_team_f Fin = extrinsic_output_team. Proof. reflexivity. Qed.
Lemma accumulate_exact : accumulate_f Fin = accumulate. Proof. reflexivity. Qed.
Lemma extrinsic_relaxed_exact : extrinsic_relaxed_f Fin = extrinsic_relaxed. Proof. reflexivity. Qed.
Lemma extrinsic_augmented_exact : extrinsic_augmented_f Fin = extrinsic_augmented. Proof. reflexivity. Qed.
Lemma intrinsic_output_exact : intrinsic_output_f Fin = intrinsic_output. Proof. reflexivity. Qed.
Lemma ksat_update_extrinsic_exact : ksat_update_extrinsic_f Fin = ksat_update_extrinsic. Proof. reflexivity. Qed.
Lemma kc_department_exact : kc_department_f Fin = kc_department. Proof. reflexivity. Qed.
Lemma kc_step_exact : kc_step_f Fin = kc_step. Proof. reflexivity. Qed.
Lemma kc_iterate_exact : kc_iterate_f Fin = kc_iterate. Proof. reflexivity. Qed.
Lemma wrapper_kc_mwm_exact : wrapper_kc_mwm_f Fin = wrapper_kc_mwm. Proof. reflexivity. Qed.
Lemma ksat_step_exact : ksat_step_f Fin = ksat_step. Proof. reflexivity. Qed.
Lemma ksat_iterate_exact : ksat_iterate_f Fin = ksat_iterate. Proof. reflexivity. Qed.
Lemma wrapper_ksat_exact : wrapper_ksat_f Fin = wrapper_ksat. Proof. reflexivity. Qed.
Lemma selection_cost_exact : selection_cost_f Fin = selection_cost. Proof. reflexivity. Qed.
Lemma relaxed_step_exact : relaxed_step_f Fin = relaxed_step. Proof. reflexivity. Qed.
Lemma iterate_relaxed_exact : iterate_relaxed_f Fin = iterate_relaxed. Proof. reflexivity. Qed.
Lemma augmented_step_exact : augmented_step_f Fin = augmented_step. Proof. reflexivity. Qed.
Lemma iterate_augmented_exact : iterate_augmented_f Fin = iterate_augmented. Proof. reflexivity. Qed.
Lemma augmentation_loop_exact : augmentation_loop_f Fin = augmentation_loop. Proof. reflexivity. Qed.
Lemma perform_augmentation_exact : perform_augmentation_f Fin = perform_augmentation. Proof. reflexivity. Qed.
Lemma tsp_solve_exact : tsp_solve_f Fin = tsp_solve. Proof. reflexivity. Qed.
Lemma wrapper_tsp_exact : wrapper_tsp_f Fin = wrapper_tsp. Proof. reflexivity. Qed.
Lemma py_run_tsp_exact : py_run_tsp_f Fin = py_run_tsp. Proof. reflexivity. Qed.
