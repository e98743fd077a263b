(** * Model: the unit tests of single steps.

    A test has three programs: a Python program draws inputs, stores them in files, runs the pure Python
    step on them and stores its result (test/python_{tsp,ksat,kc_mwm}/test/ut_*.py); a C++ program reads the
    files, runs the step of the library and stores its result (test/include/ut_*.hpp); a second Python
    program compares the two results ([check_agreement], called in ut_methods_utils.py).

    Random numbers are arguments.  A file holds the flattened array; the C++ result, a vector of the
    dimensions of the file loops, is written row by row, so it is [concat].  Sizes reach the C++ program as
    environment variables or files and are taken to be those of the Python program.  [None] is an exception
    of one of the three programs or an access outside a buffer.  The tests of the knapsack steps are in
    M_Unit_Knapsack, those of whole runs in M_Unit_Runs.  Not modelled: [astype] to the type of the library (arithmetic is exact). *)
From Verif Require Import Num Arr M_InOut M_Tsp_Constraints M_Kc_Trellis M_Equality M_Ksat M_PyRef M_PyRef_Kc M_PyRef_Ksat
  M_Tsp_Run M_Tsp_Py M_Ksat_Py M_Instances M_Test_Check.
Local Open Scope nat_scope.

(** The loops [for row_idx, cols in enumerate(rows): for col_idx in range(k): if col_idx not in cols:
    m[row_idx, col_idx] = 0].
    python_tsp/test/ut_update_equality_constraint.py:43-46,76-79,101-104, ut_input_output.py:25-28,45-48;
    python_ksat/test/ut_update_ksat_constraint.py:41-44, ut_update_equality_constraint.py:64-67 *)
Definition keep_only (k : nat) (rows : list (list nat)) (m : list (list num)) : option (list (list num)) :=
  for_up 0 (length rows) m (fun m i =>
    row <- get rows i ;;
    for_up 0 k m (fun m j => if mem j row then Some m else set2 m i j n0)).

(** the result of the Python program and that of the C++ program *)
Definition files : Type := list num * list num.
(** The comparison of a pair; ut_methods_utils.py:22-23 (tsp, ksat), 27-28 (kc_mwm) give the tolerances *)
Definition verdict (rtol atol : num) (y : files) : option bool := check_agreement rtol atol (fst y) (snd y).

(** ** Travelling salesperson *)

(** python_tsp/test/impalib_unit_tests.py:41-62: edges, costs of the edges, costs by edge and node *)
Definition ut_tsp_graph (n : nat) (symmetric : bool) (upper : list (list num))
  : option (list (nat * nat) * list num * list (list num)) :=
  let '(matrix, edges) := create_cost_matrix symmetric upper in
  ' (cost_edge, degree_cost) <- py_tsp_arrays n matrix edges ;;
  Some (edges, cost_edge, degree_cost).
(** the rows of EDGE_CONNECTIONS *)
Definition edge_rows (edges : list (nat * nat)) : list (list nat) := map (fun e => [fst e; snd e]) edges.
(** include/ut_update_degree_constraint.hpp:45-49, ut_update_equality_constraint.hpp:124-128 *)
Definition read_edges (e : nat) (buf : list nat) : option (list (nat * nat)) :=
  rows <- read_rows 0 e 2 buf ;; mapM pair_of rows.
(** include/ut_subtour_elimination_constraint.hpp:53-61, ut_update_equality_constraint.hpp:171-179 *)
Definition read_cuts (s : nat) (sizes buf : list nat) : option (list (list nat)) :=
  ' (cuts, _) <- for_up 0 s ([], 0) (fun st i =>
    let '(cuts, idx) := st in
    size <- get sizes i ;;
    cut <- slice buf idx (idx + size) ;;
    Some (cuts ++ [cut], idx + size)) ;;
  Some cuts.

(** DegreeConstraint2EdgeEcUpdate.
    python_tsp/test/ut_update_degree_constraint.py:13-39; include/ut_update_degree_constraint.hpp:13-68 *)
Definition ut_degree (n : nat) (symmetric : bool) (upper drawn : list (list num)) : option files :=
  ' (edges, _, _) <- ut_tsp_graph n symmetric upper ;;
  let e := py_num_edges n in
  pure <- py_degree_update n e edges drawn ;;
  m <- read_rows n0 e n (concat drawn) ;;
  edges' <- read_edges e (flat_edges edges) ;;
  wrapper <- degree_update n e edges' m (np_zeros e n) ;;
  Some (concat pure, concat wrapper).

(** SubtourConstraints2EdgeEcUpdate; [cuts] are the samples of edges (line 23).
    python_tsp/test/ut_subtour_elimination_constraint.py:13-48; include/ut_subtour_elimination_constraint.hpp:13-78 *)
Definition ut_subtour (n : nat) (cuts : list (list nat)) (drawn : list (list num)) : option files :=
  let e := py_num_edges n in
  pure <- py_subtour_update e cuts drawn ;;
  m <- read_rows n0 (length cuts) e (concat drawn) ;;
  cuts' <- read_cuts (length cuts) (map (@length nat) cuts) (concat cuts) ;;
  wrapper <- subtour_update e cuts' m (np_zeros (length cuts) e) ;;
  Some (concat pure, concat wrapper).

(** EdgeEc2DegreeConstraintRelaxedGraphUpdate.
    python_tsp/test/ut_update_equality_constraint.py:41-66; include/ut_update_equality_constraint.hpp:94-161 *)
Definition ut_edge_to_degree_relaxed (n : nat) (symmetric : bool) (upper drawn : list (list num))
  : option files :=
  ' (edges, _, cost) <- ut_tsp_graph n symmetric upper ;;
  let e := py_num_edges n in
  m <- keep_only n (edge_rows edges) drawn ;;
  pure <- py_edge_to_degree_relaxed edges cost m ;;
  edges' <- read_edges e (flat_edges edges) ;;
  cost' <- read_rows n0 e n (concat cost) ;;
  m' <- read_rows n0 e n (concat m) ;;
  wrapper <- edge_to_degree_relaxed e edges' cost' m' (np_zeros e n) ;;
  Some (concat pure, concat wrapper).

(** EdgeEc2SubtourConstraintsUpdate; [drawn2] are the messages of the subtour constraints.
    python_tsp/test/ut_update_equality_constraint.py:35-48,67-97; include/ut_update_equality_constraint.hpp:163-207 *)
Definition ut_edge_to_subtour (n : nat) (symmetric : bool) (upper : list (list num))
    (cuts : list (list nat)) (drawn drawn2 : list (list num)) : option files :=
  ' (edges, cost_edge, _) <- ut_tsp_graph n symmetric upper ;;
  let e := py_num_edges n in
  m <- keep_only n (edge_rows edges) drawn ;;
  sub <- keep_only e cuts drawn2 ;;
  pure <- py_edge_to_subtour e cuts cost_edge m sub ;;
  edges' <- read_edges e (flat_edges edges) ;;
  m' <- read_rows n0 e n (concat m) ;;
  cuts' <- read_cuts (length cuts) (map (@length nat) cuts) (concat cuts) ;;
  cost_edge' <- slice cost_edge 0 e ;;
  sub' <- read_rows n0 (length cuts) e (concat sub) ;;
  wrapper <- edge_to_subtour e cuts' cost_edge' m' sub' edges' ;;
  Some (concat pure, concat wrapper).

(** EdgeEc2DegreeConstraintAugmentedGraphUpdate.
    python_tsp/test/ut_update_equality_constraint.py:35-48,98-115; include/ut_update_equality_constraint.hpp:209-232 *)
Definition ut_edge_to_degree_augmented (n : nat) (symmetric : bool) (upper : list (list num))
    (cuts : list (list nat)) (drawn drawn2 : list (list num)) : option files :=
  ' (edges, _, cost) <- ut_tsp_graph n symmetric upper ;;
  let e := py_num_edges n in
  m <- keep_only n (edge_rows edges) drawn ;;
  sub <- keep_only e cuts drawn2 ;;
  pure <- py_edge_to_degree_augmented edges cost m sub ;;
  edges' <- read_edges e (flat_edges edges) ;;
  cost' <- read_rows n0 e n (concat cost) ;;
  m' <- read_rows n0 e n (concat m) ;;
  sub' <- read_rows n0 (length cuts) e (concat sub) ;;
  wrapper <- edge_to_degree_augmented e m' sub' edges' cost' (np_zeros e n) ;;
  Some (concat pure, concat wrapper).

(** ExtrinsicOutputEdgeEcRelaxedGraphUpdate.
    python_tsp/test/ut_input_output.py:16-40; include/ut_input_output.hpp:100-136 *)
Definition ut_extrinsic_relaxed (n : nat) (symmetric : bool) (upper drawn : list (list num))
  : option files :=
  ' (edges, _, _) <- ut_tsp_graph n symmetric upper ;;
  let e := py_num_edges n in
  m <- keep_only n (edge_rows edges) drawn ;;
  m' <- read_rows n0 e n (concat m) ;;
  wrapper <- extrinsic_relaxed m' (repeat n0 e) ;;
  Some (py_extrinsic_relaxed m, wrapper).

(** ExtrinsicOutputEdgeEcAugmentedGraphUpdate.
    python_tsp/test/ut_input_output.py:16-33,41-57; include/ut_input_output.hpp:100-123,138-158 *)
Definition ut_extrinsic_augmented (n : nat) (symmetric : bool) (upper : list (list num))
    (cuts : list (list nat)) (drawn drawn2 : list (list num)) : option files :=
  ' (edges, _, _) <- ut_tsp_graph n symmetric upper ;;
  let e := py_num_edges n in
  m <- keep_only n (edge_rows edges) drawn ;;
  sub <- keep_only e cuts drawn2 ;;
  pure <- py_extrinsic_augmented m sub ;;
  m' <- read_rows n0 e n (concat m) ;;
  sub' <- read_rows n0 (length cuts) e (concat sub) ;;
  wrapper <- extrinsic_augmented m' sub' (repeat n0 e) ;;
  Some (pure, wrapper).

(** ** K-SAT.  The formula is drawn in python_ksat/test/impalib_unit_tests.py:14-78, the code of
    Impa.py:2389-2441 ([create_formula]) *)

(** KsatConstraint2VariableEcUpdate; only the first [k] columns are cleared (line 42).
    python_ksat/test/ut_update_ksat_constraint.py:13-54; include/ut_update_ksat_constraint.hpp:13-80 *)
Definition ut_ksat_clause (nv k : nat) (sol : list bool) (ord : list nat -> list nat)
    (draws : list draw) (drawn : list (list num)) : option files :=
  f <- create_formula nv k sol ord draws ;;
  let nc := y_nc f in
  m <- keep_only k (y_conx f) drawn ;;
  pure <- py_ksat_update nv nc m (y_conx f) (y_types f) ;;
  conx <- read_rows 0 nc k (concat (y_conx f)) ;;
  types <- read_rows 0%Z nc k (concat (y_types f)) ;;
  m' <- read_rows n0 nc nv (concat m) ;;
  wrapper <- ksat_update nc k m' (np_zeros nc nv) conx types ;;
  Some (concat pure, concat wrapper).

(** VariableEc2KsatConstraintUpdate.
    python_ksat/test/ut_update_equality_constraint.py:13-80; include/ut_update_equality_constraint.hpp:237-342 *)
Definition ut_ksat_variable (nv k : nat) (sol : list bool) (ord : list nat -> list nat)
    (draws : list draw) (metrics : list num) (drawn : list (list num)) : option files :=
  f <- create_formula nv k sol ord draws ;;
  let nc := y_nc f in
  m <- keep_only nv (y_conx f) drawn ;;
  pure <- py_variable_update nv nc m (y_used f) metrics (y_vconx f) ;;
  used <- slice (y_used f) 0 (length (y_used f)) ;;
  sizes <- slice (map (@length nat) (y_vconx f)) 0 nv ;;
  vconx <- read_varconx nv used sizes (concat (y_vconx f)) ;;
  metrics' <- slice metrics 0 nv ;;
  m' <- read_rows n0 nc nv (concat m) ;;
  wrapper <- variable_update nv m' (np_zeros nc nv) used metrics' vconx ;;
  Some (concat pure, concat wrapper).

(** ExtrinsicOutputVariableEcUpdate.
    python_ksat/test/ut_input_output.py:13-31; include/ut_input_output.hpp:162-204 *)
Definition ut_ksat_extrinsic (nv nc : nat) (drawn : list (list num)) : option files :=
  pure <- py_extrinsic_variable nv drawn ;;
  m <- read_rows n0 nc nv (concat drawn) ;;
  wrapper <- ksat_update_extrinsic nv nc m (repeat n0 nv) ;;
  Some (pure, wrapper).

(** ** KC-MWM: [D] departments, [T] teams, [P] projects *)

(** ProjectInequalityConstraintUpdate; the flag is that of python_kc_mwm/test/impalib_unit_tests.py:49.
    python_kc_mwm/test/ut_project_inequality_constraint.py:13-33; include/ut_project_inequality_constraint.hpp:10-52 *)
Definition ut_project (T P : nat) (drawn : list (list num)) : option files :=
  pure <- py_project_update (negb (T =? P)) drawn ;;
  m <- read_rows n0 P T (concat drawn) ;;
  wrapper <- project_update T m (np_zeros P T) ;;
  Some (concat pure, concat wrapper).

(** Oric2TeamUpdate.
    python_kc_mwm/test/ut_update_or_inequality_constraint.py:13-38; include/ut_update_or_inequality_constraint.hpp:14-57 *)
Definition ut_oric_to_team (T P : nat) (drawn : list (list num)) : option files :=
  pure <- py_oric_to_team drawn ;;
  m <- read_rows n0 P T (concat drawn) ;;
  wrapper <- oric_to_team_update m (repeat n0 T) ;;
  Some (pure, wrapper).

(** Oric2ProjectEcUpdate: two pairs of files (ut_methods_utils.py:43-71).
    python_kc_mwm/test/ut_update_or_inequality_constraint.py:40-59; include/ut_update_or_inequality_constraint.hpp:59-87 *)
Definition ut_oric_to_project (T P : nat) (drawn : list (list num)) (team : list num)
    (reward : list (list num)) : option (files * files) :=
  ' (pure2, pure1) <- py_oric_to_project P T drawn team reward ;;
  m <- read_rows n0 P T (concat drawn) ;;
  reward' <- read_rows n0 P T (concat reward) ;;
  team' <- slice team 0 T ;;
  ' (wrapper2, wrapper1) <- oric_to_project_update P T m team' (np_zeros P T) (np_zeros P T) reward' ;;
  Some ((concat pure1, concat wrapper1), (concat pure2, concat wrapper2)).

(** TeamEc2OricUpdate.
    python_kc_mwm/test/ut_update_equality_constraint.py:26-43; include/ut_update_equality_constraint.hpp:38-64 *)
Definition ut_team_to_oric (D T : nat) (drawn : list (list num)) (reward : list num) : option files :=
  pure <- py_team_to_oric drawn reward ;;
  reward' <- slice reward 0 T ;;
  m <- read_rows n0 D T (concat drawn) ;;
  wrapper <- team_to_oric_update T m (repeat n0 T) reward' ;;
  Some (pure, wrapper).

(** ProjectEqConst2OricUpdate.
    python_kc_mwm/test/ut_update_equality_constraint.py:21-24,45-55; include/ut_update_equality_constraint.hpp:30-36,66-88 *)
Definition ut_project_to_oric (T P : nat) (drawn reward : list (list num)) : option files :=
  pure <- py_project_to_oric drawn reward ;;
  reward' <- read_rows n0 P T (concat reward) ;;
  m <- read_rows n0 P T (concat drawn) ;;
  wrapper <- project_to_oric_update m (np_zeros P T) reward' ;;
  Some (concat pure, concat wrapper).

(** ExtrinsicOutputTeamUpdate.
    python_kc_mwm/test/ut_input_output.py:28-47; include/ut_input_output.hpp:40-65 *)
Definition ut_extrinsic_team (D T : nat) (drawn : list (list num)) (oric : list num) : option files :=
  pure <- py_extrinsic_team drawn oric ;;
  m <- read_rows n0 D T (concat drawn) ;;
  oric' <- slice oric 0 T ;;
  wrapper <- extrinsic_output_team m oric' (repeat n0 T) ;;
  Some (pure, wrapper).

(** IntrinsicOutMwmUpdate.
    python_kc_mwm/test/ut_input_output.py:18-23,48-63; include/ut_input_output.hpp:26-38,67-94 *)
Definition ut_intrinsic (T P : nat) (drawn drawn2 reward : list (list num)) : option files :=
  pure <- py_intrinsic_mwm drawn drawn2 reward ;;
  reward' <- read_rows n0 P T (concat reward) ;;
  a <- read_rows n0 P T (concat drawn) ;;
  b <- read_rows n0 P T (concat drawn2) ;;
  wrapper <- intrinsic_out_mwm T a b reward' (repeat n0 (P * T)) ;;
  Some (concat pure, wrapper).

(** ** The switch for filtering.
    include/ut_*.hpp [const bool FILT_FLAG(filt_flag_bash)] (for instance ut_update_degree_constraint.hpp:19-25):
    the pointer returned by [getenv] converted to [bool]; [None] is an unset variable.
    python_*/test/impalib_unit_tests.py [type=bool] (python_tsp 21, 35): Python truth value of the text *)
From Coq Require Import String.
Definition cpp_flag (env : option string) : bool := match env with Some _ => true | None => false end.
Definition py_flag (text : string) : bool := match text with EmptyString => false | _ => true end.
