(** * Model: the pure Python implementation of the KC-MWM message updates.

    test/python_kc_mwm/src/{knapsack,project_inequality_constraint,
    update_or_inequality_constraint,update_equality_constraint,input_output}.py.
    [None] is a Python exception.  Weights and capacities are naturals. *)
From Verif Require Import Num Arr M_PyRef.
Local Open Scope nat_scope.

(** [l[-1]] *)
Definition py_last {A} (l : list A) : option A :=
  match length l with O => None | S k => get l k end.
(** [x in l] *)
Definition py_in (x : nat) (l : list nat) : bool := existsb (Nat.eqb x) l.
(** [next(x for x, val in enumerate(l) if val > b)]: StopIteration if there is none *)
Definition next_greater (l : list nat) (b : nat) : option nat := get (indices (fun v => b <? v) l) 0.
(** [[i for i, e in enumerate(w) if e != 0]] *)
Definition non_zero (w : list nat) : list nat := indices (fun e => negb (e =? 0)) w.

(** knapsack.py:40-50: one stage of the forward trellis *)
Definition py_fwd_row (cap t w : nat) (m : num) (init : list num) : option (list num) :=
  mapM (fun a =>
    if (w <=? a) && negb ((t =? 0) && negb (a =? w)) then
      y <- get init (a - w) ;;
      x <- get init a ;;
      Some (nmin (nadd y m) x)
    else get init a) (seq 0 (cap + 1)).

(** knapsack.py:23-60 *)
Definition py_forward (cap : nat) (msgs : list num) (weights : list nat)
  : option (list (list num)) :=
  let init := n0 :: repeat PInf cap in
  let nz := non_zero weights in
  let stages := length msgs in
  z0 <- get nz 0 ;;
  let pre := if z0 =? 0 then [] else repeat init z0 in
  ' (_, stage) <- foldM (fun st t =>
    let '(init, stage) := st in
    w <- get weights t ;;
    m <- get msgs t ;;
    row <- py_fwd_row cap t w m init ;;
    let stage := stage ++ [row] in
    last <- py_last nz ;;
    stage <- (if length nz =? stages then Some stage
              else if py_in (t + 1) nz then Some stage
              else if (last <=? t + 1) && (t + 1 <? stages) then
                Some (stage ++ repeat row (stages - (t + 1)))
              else if t + 1 <? last then
                next <- next_greater nz t ;;
                z <- get nz next ;;
                Some (stage ++ repeat row (z - t - 1))
              else Some stage) ;;
    Some (row, stage)) nz (init, pre) ;;
  Some (init :: stage).

(** knapsack.py:79-89: one stage of the backward trellis *)
Definition py_bwd_row (cap t w : nat) (m : num) (init : list num) : option (list num) :=
  mapM (fun a =>
    if ((0 <? t) && (a + w <=? cap)) || ((a =? 0) && (t =? 0)) then
      x <- get init a ;;
      y <- get init (a + w) ;;
      Some (nmin x (nadd y m))
    else get init a) (seq 0 (cap + 1)).

(** knapsack.py:62-104.  With [t = 0] the code looks for [-1], and neither condition of lines 96
    and 98 holds. *)
Definition py_backward (cap : nat) (msgs : list num) (weights : list nat)
  : option (list (list num)) :=
  let init := repeat n0 (cap + 1) in
  let nz := non_zero weights in
  let rnz := rev nz in
  let stages := length msgs in
  zl <- get rnz 0 ;;
  let pre := if zl + 1 =? stages then [] else repeat init (stages - 1 - zl) in
  ' (_, stage) <- foldM (fun st t =>
    let '(init, stage) := st in
    w <- get weights t ;;
    m <- get msgs t ;;
    row <- py_bwd_row cap t w m init ;;
    let stage := stage ++ [row] in
    z0 <- py_last rnz ;;
    stage <- (if length nz =? stages then Some stage
              else match t with
                   | O => Some stage
                   | S t1 =>
                       if py_in t1 nz then Some stage
                       else if t1 <=? z0 then Some (stage ++ repeat row z0)
                       else
                         old <- next_greater nz t1 ;;
                         zp <- match old with O => None | S p => get nz p end ;;
                         Some (stage ++ repeat row (t - zp - 1))
                   end) ;;
    Some (row, stage)) rnz (init, pre) ;;
  Some (rev stage ++ [init]).

(** knapsack.py:122-133: the two lists of path metrics of one team *)
Definition py_metrics (cap t w : nat) (m : num) (fv bv : list (list num))
  : option (list num * list num) :=
  if t =? 0 then
    f <- get2 fv t t ;;
    b <- get2 bv (t + 1) w ;;
    b0 <- get2 bv (t + 1) 0 ;;
    Some ([nadd (nadd f b) m], [nadd f b0])
  else
    for_up 0 (cap + 1) ([], []) (fun st i =>
      let '(solid, dash) := st in
      solid <- (if i + w <=? cap then
                  f <- get2 fv t i ;;
                  b <- get2 bv (t + 1) (i + w) ;;
                  Some (solid ++ [nadd (nadd f b) m])
                else Some solid) ;;
      f <- get2 fv t i ;;
      b <- get2 bv (t + 1) i ;;
      Some (solid, dash ++ [nadd f b])).

(** knapsack.py:106-134: forward, backward, and the row of one department *)
Definition py_department (num_teams cap : nat) (msgs : list num) (weights : list nat)
  : option (list num) :=
  fv <- py_forward cap msgs weights ;;
  bv <- py_backward cap msgs weights ;;
  foldM (fun out t =>
    w <- get weights t ;;
    m <- get msgs t ;;
    ' (solid, dash) <- py_metrics cap t w m fv bv ;;
    s <- py_min solid ;;
    d <- py_min dash ;;
    set out t (nsub (nsub s d) m)) (non_zero weights) (repeat n0 num_teams).

(** [np.intersect1d] of two sorted index arrays, [np.setdiff1d] of index lists (sorted, unique:
    the first argument already is) *)
Definition py_intersect (a b : list nat) : list nat := filter (fun x => py_in x b) a.
Definition py_setdiff (a b : list nat) : list nat := filter (fun x => negb (py_in x b)) a.

(** knapsack.py:151-172 *)
Definition py_team_to_department (num_departments num_teams : nat) (weights : list (list nat))
  (reward : list num) (extrinsic : list (list num)) (oric : list num)
  : option (list (list num)) :=
  for_up 0 num_departments (np_zeros num_departments num_teams) (fun out d =>
    wd <- get weights d ;;
    row <- get out d ;;
    ' (row, total) <- foldM (fun st u =>
      let '(row, total) := st in
      wu <- get weights u ;;
      let inter := py_intersect (non_zero wd) (non_zero wu) in
      r <- np_take reward inter ;;
      xu <- get extrinsic u ;;
      x <- np_take xu inter ;;
      o <- np_take oric inter ;;
      v <- np_add r x ;;
      v <- np_add v o ;;
      row <- np_put row inter v ;;
      Some (row, total ++ inter)) (all_but num_departments d) (row, []) ;;
    (* [np.setdiff1d] of an empty list is an array of floats, which cannot be an index *)
    _ <- get (non_zero wd) 0 ;;
    let unique := py_setdiff (non_zero wd) total in
    r <- np_take reward unique ;;
    o <- np_take oric unique ;;
    v <- np_add r o ;;
    row <- np_put row unique v ;;
    set out d row).

(** project_inequality_constraint.py:39-45 on one entry *)
Definition py_constraint_rule (unbalanced : bool) (m : num) : num :=
  if unbalanced then np_minimum m n0 else m.

(** project_inequality_constraint.py:30-37 on one row: columns 0, 1 .. T-2 and T-1.  (The code
    treats all rows at once; [cols = 0] always, line 18.) *)
Definition py_project_row (unbalanced : bool) (row : list num) : option (list num) :=
  let T := length row in
  let b := repeat n0 T in
  m <- np_min (skipn 1 row) ;;
  b <- set b 0 (py_constraint_rule unbalanced m) ;;
  b <- for_up 1 (T - 1) b (fun b j =>
    lower <- np_min (firstn j row) ;;
    upper <- np_min (skipn (j + 1) row) ;;
    set b j (py_constraint_rule unbalanced (np_minimum lower upper))) ;;
  m <- np_min (firstn (T - 1) row) ;;
  b <- set b (T - 1) (py_constraint_rule unbalanced m) ;;
  Some (map nopp b).
Definition py_project_update (unbalanced : bool) (m : list (list num)) : option (list (list num)) :=
  mapM (py_project_row unbalanced) m.

(** update_or_inequality_constraint.py:36-51; both branches of the flag are the same code *)
Definition py_oric_activation (num_projects p : nat) (eq2oric : list (list num)) (team2oric : list num)
  : option (list num) :=
  rows <- np_take eq2oric (all_but num_projects p) ;;
  mapM (fun t =>
    c <- column rows t ;;
    m <- np_min c ;;
    x <- get team2oric t ;;
    Some (nopp (np_minimum m (nopp x)))) (seq 0 (length team2oric)).

(** update_or_inequality_constraint.py:21-34 *)
Definition py_oric_to_project (num_projects num_teams : nat) (eq2oric : list (list num))
  (team2oric : list num) (reward : list (list num)) : option (list (list num) * list (list num)) :=
  oric2eq <- for_up 0 num_projects (np_zeros num_projects num_teams) (fun out p =>
    r <- py_oric_activation num_projects p eq2oric team2oric ;;
    if length r =? num_teams then set out p r else None) ;;
  eq2project <- np_add2 oric2eq reward ;;
  Some (oric2eq, eq2project).

(** update_or_inequality_constraint.py:53-56: minimum over the projects, team by team *)
Definition py_oric_to_team (eq2oric : list (list num)) : option (list num) :=
  r0 <- get eq2oric 0 ;;
  mapM (fun t => c <- column eq2oric t ;; np_min c) (seq 0 (length r0)).

(** update_equality_constraint.py:18-21 and :23-25 *)
Definition py_team_to_oric (extrinsic : list (list num)) (reward : list num) : option (list num) :=
  s <- column_sums extrinsic ;; np_add s reward.
Definition py_project_to_oric (project2eq reward : list (list num)) : option (list (list num)) :=
  np_add2 project2eq reward.

(** input_output.py:16-18 and :20-22 *)
Definition py_intrinsic_mwm (oric2eq project2eq reward : list (list num)) : option (list (list num)) :=
  x <- np_add2 oric2eq project2eq ;; np_add2 x reward.
Definition py_extrinsic_team (extrinsic : list (list num)) (oric2team : list num) : option (list num) :=
  s <- column_sums extrinsic ;; np_add s oric2team.
