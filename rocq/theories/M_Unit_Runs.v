(** * Model: the unit tests of whole runs.

    As in M_Unit_Tests a test is the result of a Python program and that of a C++ program that reads the files
    of the first; the pure Python solvers are those of M_PyRef_Object, M_PyRef_Tsp and M_PyRef_Run, the library
    those of M_Runs and M_Tsp_Run.  One flag for filtering stands for both programs, as both take any text for true
    (C89).  Numbers saved as 64-bit integers are read as 32-bit ones; they are taken to fit.
    [None] is an exception or an early end of one of the programs, an access outside a buffer, or a loop that does not
    end within [fuel] rounds. *)
From Verif Require Import Num Arr M_InOut M_Kc_Trellis M_PyRef M_Runs M_PyRef_Run M_Tsp_Run M_Tsp_Py M_Kc_Py M_Kc_Summary
  M_PyRef_Tsp M_Ksat_Py M_Instances M_PyRef_Object M_Test_Check M_Unit_Tests M_Unit_Knapsack.
Local Open Scope nat_scope.

(** ** K-SAT: Iterate.
    python_ksat/test/ut_graphical_model.py:13-99; include/ut_graphical_model.hpp:276-350.  The messages are
    stored before the run.  [None] also stands for an exception in what the run reports. *)
Definition ut_ksat_iterate (nv nc k iters : nat) (flag : bool) (alpha thr : num) (ord : list nat -> list nat)
  (x : ksat_draws) : option files :=
  r <- ref_initialize true nv nc k [] ord x ;;
  let f := rf_formula r in
  m <- py_ksat_initial nv (rf_nc r) (y_conx f) (rf_metrics r) ;;
  ' (pure, _, _) <- ref_run iters flag alpha thr r ;;
  out <- wrapper_ksat iters nv (rf_nc r) (length (y_used f)) alpha flag (y_used f) (concat (y_vconx f))
           (map (@length nat) (y_vconx f)) (concat (y_conx f)) (concat (y_types f)) (rf_metrics r) (concat m) k ;;
  Some (pure, out).

(** ** Travelling salesperson *)

(** The files are written before the run; the C++ program reads them.  python_tsp/test/ut_graphical_model.py:54-67, 113-126;
    include/ut_graphical_model.hpp:189-216 (no reset of messages, limit 50) *)
Definition ut_tsp_params (n : nat) (matrix : list (list num)) (aug : bool) (iters : nat) (flag : bool) (alpha thr : num)
  (ord : list nat -> list nat) : option tsp_params :=
  d <- py_tsp_initialize n matrix ;;
  inp <- tsp_process_inputs n (n * n - n) (flat_edges (pd_edges d)) (pd_cost d) (concat (pd_cm d))
           (concat (pd_degree_cost d)) (concat (pd_degree_cost d)) ;;
  Some (call_params iters n (n * n - n) aug false flag alpha thr 50 inp ord).
Definition ut_tsp_options (aug : bool) (iters : nat) (flag : bool) (alpha thr : num) : pt_options :=
  {| po_iters := iters; po_aug := aug; po_reset := false; po_filt := flag; po_alpha := alpha; po_thr := thr |}.
(** IterateRelaxedGraph.  python_tsp/test/ut_graphical_model.py:32-80; include/ut_graphical_model.hpp:219-238 *)
Definition ut_tsp_relaxed (n : nat) (symmetric : bool) (upper : list (list num)) (iters : nat) (flag : bool)
  (alpha thr : num) (ord : list nat -> list nat) : option files :=
  let '(matrix, _) := create_cost_matrix symmetric upper in
  let o := ut_tsp_options false iters flag alpha thr in
  d <- py_tsp_initialize n matrix ;;
  ' (m, pure) <- py_iterate_relaxed o d
       {| pm_e2d := pd_degree_cost d; pm_deg := None; pm_deg_old := None; pm_sub := []; pm_sub_old := None |} ;;
  dec <- py_hard_decision o d pure ;;
  _ <- py_analysis d m pure dec [] [] false false ;;
  p <- ut_tsp_params n matrix false iters flag alpha thr ord ;;
  st <- iterate_relaxed p (tsp_init p) ;;
  Some (pure, r_intr (t_sol st)).
(** IterateAugmentedGraph.  python_tsp/test/ut_graphical_model.py:81-136; include/ut_graphical_model.hpp:240-268
    (limit of 50 rounds).  [fuel] bounds the rounds of both programs. *)
Definition ut_tsp_augmented (fuel n : nat) (symmetric : bool) (upper : list (list num)) (iters : nat) (flag : bool)
  (alpha thr : num) (ord : list nat -> list nat) : option files :=
  let '(matrix, _) := create_cost_matrix symmetric upper in
  r <- py_tsp_reference fuel (ut_tsp_options true iters flag alpha thr) n matrix ;;
  p <- ut_tsp_params n matrix true iters flag alpha thr ord ;;
  out <- tsp_solve fuel p 50 ;;
  match r, out with
  | PyDone ps, Returned st => Some (pt_intr ps, r_intr (t_sol st))
  | _, _ => None
  end.

(** ** KC-MWM *)

(** What the C++ programs do with the files: extrinsic output of the teams, intrinsic output of the pairs.
    include/ut_graphical_model.hpp:15-92, 94-166 *)
Definition ut_kc_cpp (iters : nat) (flag : bool) (alpha : num) (T D P : nat) (caps : list nat) (W : list (list nat))
  (reward : list num) (R msgs : list (list num)) : option files :=
  let nz := py_nonzero W in
  wrapper_kc_mwm iters D T P (concat msgs) caps reward (concat R) (concat W) (concat (py_pad nz)) (map (@length nat) nz)
    (list_max (map (@length nat) nz)) flag alpha.
(** Iterate: the test generates the teams, the object generates them again, without pruning (as in [kc_initialize] from
    there on); rewards are handed over transposed and transposed back.  The result has the two pairs of files.
    Simplification: [None] if the number of drawn rewards is not that of the teams.
    python_kc_mwm/test/ut_graphical_model.py:14-119; src/graphical_model.py:32-119, 144-171, 368-405 *)
Definition ut_kc_iterate (iters : nat) (flag : bool) (alpha : num) (caps types : list nat)
  (reward : list num) (R : list (list num)) : option (files * files) :=
  let D := length caps in
  ' (T, W) <- ut_teams caps types ;;
  if (length reward =? T) && forallb (fun r => length r =? T) R then
    ' (g, _) <- generate caps types (list_prod (units D) (units D)) ;;
    let given := transpose T R in
    r0 <- get given 0 ;;
    let P := length r0 in
    ' (ext, _, A) <- py_kc_reference iters flag alpha (length reward) D P caps (gen_weights g) reward (transpose P given) ;;
    ' (ext', A') <- ut_kc_cpp iters flag alpha T D (length R) caps W reward R (py_team_messages W reward) ;;
    Some ((ext, ext'), (concat A, A'))
  else None.
(** IterateSampleGraph: a stored instance; all files come from the object.
    python_kc_mwm/test/ut_graphical_model.py:121-208 *)
Definition ut_kc_sample (iters : nat) (flag : bool) (alpha : num) (caps types : list nat) (rew_team : list num)
  (rew_proj : list (list num)) : option (files * files) :=
  o <- kc_initialize caps types ;;
  r0 <- get rew_proj 0 ;;
  let P := length r0 in
  let T := length (o_types o) in
  let D := length caps in
  if (length rew_team =? T) && (length rew_proj =? T) && forallb (fun r => length r =? P) rew_proj then
    let R := transpose P rew_proj in
    ' (ext, _, A) <- py_kc_reference iters flag alpha T D P caps (o_weights o) rew_team R ;;
    ' (ext', A') <- ut_kc_cpp iters flag alpha T D P caps (o_weights o) rew_team R (py_team_messages (o_weights o) rew_team) ;;
    Some ((ext, ext'), (concat A, A'))
  else None.
