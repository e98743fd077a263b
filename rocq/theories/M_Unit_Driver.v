(** * Model: what starts the unit tests.

    The shell scripts test/src/unit_test_tsp.sh, unit_test_ksat.sh and unit_test_kc_mwm.sh; the programs
    test/python_tsp/test/impalib_unit_tests.py, python_ksat/test/ and python_kc_mwm/test/ that read options; the programs
    test/src/impalib_unit_tests_tsp.cpp, _ksat.cpp and _kc_mwm.cpp that read environment variables.

    A program is described by the test functions that it calls, with those arguments that come from the settings of the
    script.  Simplified: arguments that are drawn at random (edges, costs, formulas) are left out, they reach the C++
    program through files (M_Unit_Tests, M_Unit_Runs, M_Unit_Knapsack); numbers have no upper limit; the values of shell
    variables have no blanks and no wildcards, so that the shell does not split them. *)
From Coq Require Import Ascii String ZArith.
From Verif Require Import Num Arr M_Cnf M_Cli.
Local Open Scope nat_scope.

Inductive val := VInt (z : Z) | VReal (x : num) | VBool (b : bool) | VText (s : text) | VList (l : list Z).
Record call := { c_fun : string; c_args : list (text * val) }.
(** values of the variables of the script *)
Definition shell : Type := string -> text.

(** ** Reading environment variables *)

Fixpoint skip_blanks (s : text) : text :=
  match s with
  | c :: r => if is_space c then skip_blanks r else s
  | [] => []
  end.
Fixpoint span_digits (s : text) : text * text :=
  match s with
  | c :: r => if is_digit c then let '(a, b) := span_digits r in (c :: a, b) else ([], s)
  | [] => ([], [])
  end.
(** the number at the start of [s] and what follows it; [None]: no number there *)
Definition read_int (s : text) : option (Z * text) :=
  let s := skip_blanks s in
  let '(negative, s) := match s with
    | c :: r => if (c =? "-")%char then (true, r) else if (c =? "+")%char then (false, r) else (false, s)
    | [] => (false, [])
    end in
  let '(d, rest) := span_digits s in
  n <- unsigned d ;; Some (if negative : bool then (- n)%Z else n, rest).
(** C [atoi] *)
Definition atoi (s : text) : Z := match read_int s with Some (z, _) => z | None => 0%Z end.
(** [ss >> ch] *)
Definition drop_char (s : text) : text := tl (skip_blanks s).
(** test/include/ut_utils.hpp:13-23 *)
Fixpoint take_int_from (fuel : nat) (s : text) : list Z :=
  match fuel with
  | 0 => []
  | S fuel => match read_int s with
              | Some (z, rest) => z :: take_int_from fuel (drop_char rest)
              | None => []
              end
  end.
Definition take_int (s : text) : list Z := take_int_from (S (length s)) s.

(** how a constant of a C++ test function is computed: [const int X = atoi(getenv(V))], [const bool X(getenv(V))],
    [take_int(getenv(V))], [X*X - X] *)
Inductive reader := RInt | RFlag | RList | REdges.
(** [None] is the access to a null pointer *)
Definition read_env (r : reader) (v : option text) : option val :=
  match r with
  | RInt => option_map (fun w => VInt (atoi w)) v
  | RFlag => Some (VBool match v with Some _ => true | None => false end)
  | RList => option_map (fun w => VList (take_int w)) v
  | REdges => option_map (fun w => VInt (atoi w * atoi w - atoi w)) v
  end.
(** the environment that the script leaves to the programs *)
Definition env (exports : list string) (vars : shell) (n : string) : option text :=
  if existsb (String.eqb n) exports then Some (vars n) else None.
(** test functions: name, constants (name, variable, reader) *)
Definition cpp_function : Type := string * list (string * string * reader).
Definition cpp_call (getenv : string -> option text) (f : cpp_function) : option call :=
  args <- mapM (fun c : string * string * reader => let '(x, v, r) := c in
     y <- read_env r (getenv v) ;; Some (lit x, y)) (snd f) ;;
  Some {| c_fun := fst f; c_args := args |}.
(** a [main]: every [if] whose names contain the test calls its function *)
Definition cpp_main (branches : list (list string * cpp_function)) (getenv : string -> option text) : option (list call) :=
  t <- getenv "test_name"%string ;;
  mapM (fun b => cpp_call getenv (snd b)) (filter (fun b => existsb (fun n => teqb (lit n) t) (fst b)) branches).

(** ** Reading options *)

(** where an argument comes from: an option, [[int(item) for item in args.x.split(",")]] of an option,
    [N_NODES**2 - N_NODES], [N_TEAMS != N_PROJECTS] *)
Inductive source := SOpt (o : string) | SInts (o : string) | SEdges (o : string) | SDiffer (o p : string).
Definition of_py (v : pyv) : val :=
  match v with PInt z => VInt z | PReal x => VReal x | PBool b => VBool b | PStr s => VText s end.
(** [s.split(c)] *)
Fixpoint split_at (c : ascii) (s : text) : list text :=
  match s with
  | [] => [[]]
  | a :: r => if (a =? c)%char then [] :: split_at c r
              else match split_at c r with w :: ws => (a :: w) :: ws | [] => [[a]] end
  end.
Definition py_source (decls : list decl) (ns : list (text * pyv)) (s : source) : option val :=
  match s with
  | SOpt o => option_map of_py (arg decls ns o)
  | SInts o => v <- arg decls ns o ;; w <- as_str v ;; l <- mapM to_int (split_at ","%char w) ;; Some (VList l)
  | SEdges o => v <- arg decls ns o ;; n <- as_int v ;; Some (VInt (n * n - n))
  | SDiffer o p => v <- arg decls ns o ;; n <- as_int v ;; w <- arg decls ns p ;; m <- as_int w ;;
      Some (VBool (negb (n =? m)%Z))
  end.
Definition py_function : Type := string * list (string * source).
Definition py_call (decls : list decl) (ns : list (text * pyv)) (f : py_function) : option call :=
  args <- mapM (fun a : string * source => v <- py_source decls ns (snd a) ;; Some (lit (fst a), v)) (snd f) ;;
  Some {| c_fun := fst f; c_args := args |}.
(** [if ... elif ...]: the first branch whose names contain the test *)
Definition py_main (decls : list decl) (branches : list (list string * list py_function)) (argv : list text) : option (list call) :=
  ns <- parse decls argv [] ;;
  t <- arg decls ns "ut_name" ;; t <- as_str t ;;
  match find (fun b => existsb (fun n => teqb (lit n) t) (fst b)) branches with
  | Some b => mapM (py_call decls ns) (snd b)
  | None => Some []
  end.
(** the words [--option=$variable] *)
Definition words_of (vars : shell) (l : list (string * string)) : list text :=
  map (fun ov => lit "--" ++ lit (fst ov) ++ "="%char :: vars (snd ov)) l.

(** An option without default has the value None in Python.  The scripts give all of them except --symFlag, of which
    only the truth value is used: False stands for None. *)
Definition unset (k : kind) : pyv := match k with KInt => PInt 0 | KReal => PReal n0 | KStr => PStr [] | _ => PBool false end.
Definition opt' (n : string) (k : kind) : decl := opt n k (unset k).

(** ** Travelling salesperson *)

(** unit_test_tsp.sh:25 *)
Definition tsp_unit_tests : list string :=
  ["ExtrinsicOutputEdgeEcRelaxedGraphUpdate"; "ExtrinsicOutputEdgeEcAugmentedGraphUpdate"; "DegreeConstraint2EdgeEcUpdate";
   "SubtourConstraints2EdgeEcUpdate"; "EdgeEc2DegreeConstraintRelaxedGraphUpdate"; "EdgeEc2SubtourConstraintsUpdate";
   "EdgeEc2DegreeConstraintAugmentedGraphUpdate"; "IterateRelaxedGraph"; "IterateAugmentedGraph"]%string.
(** unit_test_tsp.sh:31 *)
Definition tsp_exports : list string := ["test_name"; "N_NODES"; "N_SUBTOURS"; "FILT_FLAG"; "SYM_FLAG"; "N_ITER"]%string.
(** unit_test_tsp.sh:34-38 *)
Definition tsp_words (vars : shell) : list text :=
  words_of vars ([("sub_test_num", "sub_test_number"); ("sub_tests_total", "total_sub_tests"); ("ut_name", "test_name");
    ("nNodes", "N_NODES"); ("nSubtours", "N_SUBTOURS"); ("fFlag", "FILT_FLAG")]%string ++
    (if teqb (vars "SYM_FLAG"%string) (lit "true") then [("symFlag", "SYM_FLAG")]%string else []) ++
    [("alpha", "ALPHA"); ("augmFlag", "AUGM_FLAG"); ("threshold", "threshold"); ("nIter", "N_ITER")]%string).
(** python_tsp/test/impalib_unit_tests.py:14-25 *)
Definition ut_tsp_decls : list decl :=
  [help; opt "sub_test_num" KInt (PInt 1); opt "sub_tests_total" KInt (PInt 1); opt' "ut_name" KStr; opt' "nNodes" KInt;
   opt' "nSubtours" KInt; opt' "symFlag" KBool; opt' "fFlag" KBool; opt' "alpha" KReal; opt' "augmFlag" KBool;
   opt' "threshold" KReal; opt' "nIter" KInt]%string.
(** python_tsp/test/impalib_unit_tests.py:29-41, 64-119 *)
Definition ut_tsp_branches : list (list string * list py_function) :=
  [(["ExtrinsicOutputEdgeEcRelaxedGraphUpdate"; "ExtrinsicOutputEdgeEcAugmentedGraphUpdate"],
    [("ut_input_output.ut_io", [("ut_name", SOpt "ut_name"); ("n_edge_variables", SEdges "nNodes"); ("n_nodes", SOpt "nNodes");
       ("n_subtours", SOpt "nSubtours")])]);
   (["DegreeConstraint2EdgeEcUpdate"],
    [("ut_update_degree_constraint.ut_degree_constraint", [("ut_name", SOpt "ut_name"); ("n_edge_variables", SEdges "nNodes");
       ("n_nodes", SOpt "nNodes"); ("filt_flag", SOpt "fFlag"); ("alpha", SOpt "alpha")])]);
   (["SubtourConstraints2EdgeEcUpdate"],
    [("ut_subtour_elimination_constraint.ut_subtour_constraint", [("ut_name", SOpt "ut_name");
       ("n_edge_variables", SEdges "nNodes"); ("n_nodes", SOpt "nNodes"); ("filt_flag", SOpt "fFlag"); ("alpha", SOpt "alpha");
       ("n_subtours", SOpt "nSubtours")])]);
   (["EdgeEc2DegreeConstraintRelaxedGraphUpdate"; "EdgeEc2SubtourConstraintsUpdate"; "EdgeEc2DegreeConstraintAugmentedGraphUpdate"],
    [("ut_update_equality_constraint.ut_equality_constraint", [("ut_name", SOpt "ut_name");
       ("n_edge_variables", SEdges "nNodes"); ("n_nodes", SOpt "nNodes"); ("filt_flag", SOpt "fFlag"); ("alpha", SOpt "alpha");
       ("n_subtours", SOpt "nSubtours"); ("augm_flag", SOpt "augmFlag")])]);
   (["IterateRelaxedGraph"; "IterateAugmentedGraph"],
    [("ut_graphical_model.ut_model_graph", [("ut_name", SOpt "ut_name"); ("n_nodes", SOpt "nNodes"); ("filt_flag", SOpt "fFlag");
       ("alpha", SOpt "alpha"); ("threshold", SOpt "threshold"); ("n_iter", SOpt "nIter"); ("sym_flag", SOpt "symFlag")])])]%string.
(** impalib_unit_tests_tsp.cpp:16-35; constants: test/include/ut_input_output.hpp:102-112,
    ut_update_degree_constraint.hpp:15-25, ut_subtour_elimination_constraint.hpp:15-30,
    ut_update_equality_constraint.hpp:96-111, ut_graphical_model.hpp:173-188 *)
Definition cpp_tsp_branches : list (list string * cpp_function) :=
  [(["ExtrinsicOutputEdgeEcRelaxedGraphUpdate"; "ExtrinsicOutputEdgeEcAugmentedGraphUpdate"],
    ("ut_input_output_tsp", [("N_NODES", "N_NODES", RInt); ("N_EDGE_VARIABLES", "N_NODES", REdges);
       ("N_SUBTOURS", "N_SUBTOURS", RInt)]));
   (["DegreeConstraint2EdgeEcUpdate"],
    ("ut_degree_constraint", [("N_NODES", "N_NODES", RInt); ("N_EDGE_VARIABLES", "N_NODES", REdges);
       ("FILT_FLAG", "FILT_FLAG", RFlag)]));
   (["SubtourConstraints2EdgeEcUpdate"],
    ("ut_subtour_constraint", [("N_NODES", "N_NODES", RInt); ("N_SUBTOURS", "N_SUBTOURS", RInt);
       ("N_EDGE_VARIABLES", "N_NODES", REdges); ("FILT_FLAG", "FILT_FLAG", RFlag)]));
   (["EdgeEc2DegreeConstraintRelaxedGraphUpdate"; "EdgeEc2SubtourConstraintsUpdate"; "EdgeEc2DegreeConstraintAugmentedGraphUpdate"],
    ("ut_equality_constraint_tsp", [("N_NODES", "N_NODES", RInt); ("N_SUBTOURS", "N_SUBTOURS", RInt);
       ("N_EDGE_VARIABLES", "N_NODES", REdges); ("FILT_FLAG", "FILT_FLAG", RFlag)]));
   (["IterateRelaxedGraph"; "IterateAugmentedGraph"],
    ("ut_model_graph_tsp", [("N_NODES", "N_NODES", RInt); ("N_ITER", "N_ITER", RInt); ("N_EDGE_VARIABLES", "N_NODES", REdges);
       ("FILT_FLAG", "FILT_FLAG", RFlag)]))]%string.
(** the two programs started by unit_test_tsp.sh:35-39 *)
Definition python_tsp (vars : shell) : option (list call) := py_main ut_tsp_decls ut_tsp_branches (tsp_words vars).
Definition cpp_tsp (vars : shell) : option (list call) := cpp_main cpp_tsp_branches (env tsp_exports vars).

(** ** K-SAT *)

(** unit_test_ksat.sh:28 *)
Definition ksat_unit_tests : list string :=
  ["ExtrinsicOutputVariableEcUpdate"; "VariableEc2KsatConstraintUpdate"; "KsatConstraint2VariableEcUpdate"; "Iterate"]%string.
(** unit_test_ksat.sh:34 *)
Definition ksat_exports : list string :=
  ["test_name"; "NUM_VARIABLES"; "K_VARIABLE"; "N_ITER"; "FILT_FLAG"; "NUM_CONSTRAINTS"]%string.
(** unit_test_ksat.sh:37 *)
Definition ksat_words (vars : shell) : list text :=
  words_of vars [("sub_test_num", "sub_test_number"); ("sub_tests_total", "total_sub_tests"); ("ut_name", "test_name");
    ("nVariables", "NUM_VARIABLES"); ("nConstraints", "NUM_CONSTRAINTS"); ("filteringFlag", "FILT_FLAG");
    ("kVariable", "K_VARIABLE"); ("alpha", "ALPHA"); ("typeMetrics", "TYPE_METRICS"); ("threshold", "threshold");
    ("nITER", "N_ITER"); ("PPElements", "PP_ELEMENTS"); ("var", "IM_VARIANCE")]%string.
(** python_ksat/test/impalib_unit_tests.py:80-93 *)
Definition ut_ksat_decls : list decl :=
  [help; opt "sub_test_num" KInt (PInt 1); opt "sub_tests_total" KInt (PInt 1); opt' "ut_name" KStr; opt "nITER" KInt (PInt 200);
   opt "nVariables" KInt (PInt 10); opt "nConstraints" KInt (PInt 3); opt "kVariable" KInt (PInt 3);
   opt "threshold" KReal (PReal (dec (-1) 4)); opt "PPElements" KInt (PInt 2); opt "filteringFlag" KBool (PBool true);
   opt "alpha" KReal (PReal (dec 5 1)); opt "typeMetrics" KBool (PBool false); opt "var" KReal (PReal (dec 3 0))]%string.
(** python_ksat/test/impalib_unit_tests.py:13, 112-113 *)
Definition ksat_draw : py_function :=
  ("create_incoming_metrics_cost", [("num_variables", SOpt "nVariables"); ("num_constraints", SOpt "nConstraints");
     ("k_variable", SOpt "kVariable"); ("var", SOpt "var"); ("type_metrics", SOpt "typeMetrics")])%string.
(** python_ksat/test/impalib_unit_tests.py:97-158; after the draw [n_constraints] is the number of different clauses *)
Definition ut_ksat_branches : list (list string * list py_function) :=
  [(["ExtrinsicOutputVariableEcUpdate"],
    [("ut_input_output.ut_io", [("ut_name", SOpt "ut_name"); ("n_variables", SOpt "nVariables");
       ("n_constraints", SOpt "nConstraints")])]);
   (["VariableEc2KsatConstraintUpdate"],
    [ksat_draw; ("ut_update_equality_constraint.ut_equality_constraint", [("ut_name", SOpt "ut_name");
       ("n_variables", SOpt "nVariables"); ("filt_flag", SOpt "filteringFlag"); ("alpha", SOpt "alpha")])]);
   (["KsatConstraint2VariableEcUpdate"],
    [ksat_draw; ("ut_update_ksat_constraint.ut_ksat_constraint", [("ut_name", SOpt "ut_name"); ("n_variables", SOpt "nVariables");
       ("filt_flag", SOpt "filteringFlag"); ("alpha", SOpt "alpha"); ("k_variable", SOpt "kVariable")])]);
   (["Iterate"],
    [ksat_draw; ("ut_graphical_model.ut_model_graph", [("ut_name", SOpt "ut_name"); ("n_variables", SOpt "nVariables");
       ("filt_flag", SOpt "filteringFlag"); ("alpha", SOpt "alpha"); ("threshold", SOpt "threshold"); ("n_iter", SOpt "nITER");
       ("k_variable", SOpt "kVariable")])])]%string.
(** impalib_unit_tests_ksat.cpp:16-30; constants: test/include/ut_input_output.hpp:164-178,
    ut_update_equality_constraint.hpp:240-254, ut_update_ksat_constraint.hpp:15-29, ut_graphical_model.hpp:278-297 *)
Definition cpp_ksat_branches : list (list string * cpp_function) :=
  [(["ExtrinsicOutputVariableEcUpdate"],
    ("ut_input_output_ksat", [("NUM_VARIABLES", "NUM_VARIABLES", RInt); ("NUM_CONSTRAINTS", "NUM_CONSTRAINTS", RInt);
       ("K_VARIABLE", "K_VARIABLE", RInt)]));
   (["VariableEc2KsatConstraintUpdate"],
    ("ut_equality_constraint_ksat", [("NUM_VARIABLES", "NUM_VARIABLES", RInt); ("K_VARIABLE", "K_VARIABLE", RInt);
       ("FILT_FLAG", "FILT_FLAG", RFlag)]));
   (["KsatConstraint2VariableEcUpdate"],
    ("ut_ksat_constraint", [("NUM_VARIABLES", "NUM_VARIABLES", RInt); ("K_VARIABLE", "K_VARIABLE", RInt);
       ("FILT_FLAG", "FILT_FLAG", RFlag)]));
   (["Iterate"],
    ("ut_model_graph_ksat", [("NUM_VARIABLES", "NUM_VARIABLES", RInt); ("K_VARIABLE", "K_VARIABLE", RInt);
       ("N_ITER", "N_ITER", RInt); ("FILT_FLAG", "FILT_FLAG", RFlag)]))]%string.
Definition python_ksat (vars : shell) : option (list call) := py_main ut_ksat_decls ut_ksat_branches (ksat_words vars).
Definition cpp_ksat (vars : shell) : option (list call) := cpp_main cpp_ksat_branches (env ksat_exports vars).

(** ** KC-MWM *)

(** unit_test_kc_mwm.sh:28 *)
Definition kc_unit_tests : list string :=
  ["Oric2TeamUpdate"; "Oric2ProjectEcUpdate"; "ExtrinsicOutputTeamUpdate"; "IntrinsicOutMwmUpdate"; "TeamEc2OricUpdate";
   "ProjectEqConst2OricUpdate"; "ProjectInequalityConstraintUpdate"; "KnapsackForward"; "KnapsackBackward";
   "ExtrinsicOutputDepartment"; "Team2KnapsackUpdate"; "ProcessExtrinsicOutputDepartment"; "Iterate"; "IterateSampleGraph"]%string.
(** unit_test_kc_mwm.sh:34 *)
Definition kc_exports : list string :=
  ["test_name"; "N_DEPARTMENTS"; "N_TEAMS"; "N_PROJECTS"; "FILT_FLAG"; "Nu"; "N_ITER"]%string.
(** unit_test_kc_mwm.sh:37 *)
Definition kc_words (vars : shell) : list text :=
  words_of vars [("sub_test_num", "sub_test_number"); ("sub_tests_total", "total_sub_tests"); ("ut_name", "test_name");
    ("nDepartments", "N_DEPARTMENTS"); ("nTeams", "N_TEAMS"); ("nProjects", "N_PROJECTS"); ("Nu", "Nu"); ("pTypes", "pTypes");
    ("fFlag", "FILT_FLAG"); ("alpha", "ALPHA"); ("nIter", "N_ITER"); ("ppFlag", "POST_PROCESS_FLAG");
    ("threshold", "threshold")]%string.
(** python_kc_mwm/test/impalib_unit_tests.py:16-34 *)
Definition ut_kc_decls : list decl :=
  [help; opt "sub_test_num" KInt (PInt 1); opt "sub_tests_total" KInt (PInt 1); opt' "ut_name" KStr; opt' "nDepartments" KInt;
   opt' "nTeams" KInt; opt' "nProjects" KInt; opt' "Nu" KStr; opt' "pTypes" KStr; opt' "alpha" KReal; opt' "fFlag" KBool;
   opt' "nIter" KInt; opt' "ppFlag" KBool; opt' "threshold" KReal]%string.
(** python_kc_mwm/test/impalib_unit_tests.py:38-163 *)
Definition kc_sizes : list (string * source) :=
  [("n_departments", SOpt "nDepartments"); ("n_teams", SOpt "nTeams"); ("n_projects", SOpt "nProjects")]%string.
Definition kc_knapsack : list (string * source) :=
  [("ut_name", SOpt "ut_name"); ("N_u", SInts "Nu"); ("team_types", SInts "pTypes"); ("filtering_flag", SOpt "fFlag");
   ("alpha", SOpt "alpha")]%string.
Definition ut_kc_branches : list (list string * list py_function) :=
  [(["Oric2TeamUpdate"; "Oric2ProjectEcUpdate"],
    [("ut_update_or_inequality_constraint.ut_oric",
      ("ut_name", SOpt "ut_name") :: (kc_sizes ++ [("unbalanced_flag", SDiffer "nTeams" "nProjects")])%list)]);
   (["ExtrinsicOutputTeamUpdate"; "IntrinsicOutMwmUpdate"],
    [("ut_input_output.ut_io", ("ut_name", SOpt "ut_name") :: kc_sizes)]);
   (["TeamEc2OricUpdate"; "ProjectEqConst2OricUpdate"],
    [("ut_update_equality_constraint.ut_eq_consraint", ("ut_name", SOpt "ut_name") :: kc_sizes)]);
   (["ProjectInequalityConstraintUpdate"],
    [("ut_project_inequality_constraint.ut_project_ineq_constraint",
      ("ut_name", SOpt "ut_name") :: (kc_sizes ++ [("unbalanced_flag", SDiffer "nTeams" "nProjects")])%list)]);
   (["KnapsackForward"; "KnapsackBackward"], [("ut_knapsack.ut_forward_backward", kc_knapsack)]);
   (["ExtrinsicOutputDepartment"], [("ut_knapsack.ut_extrinsic_output_department", kc_knapsack)]);
   (["Team2KnapsackUpdate"], [("ut_knapsack.ut_team_to_knapsack_update", kc_knapsack)]);
   (["ProcessExtrinsicOutputDepartment"],
    [("ut_knapsack.ut_process_extrinsic_output_department", (kc_knapsack ++ [("N_ITER", SOpt "nIter")])%list)]);
   (["Iterate"],
    [("ut_graphical_model.ut_iterate", (kc_knapsack ++ [("N_ITER", SOpt "nIter"); ("ppFlag", SOpt "ppFlag");
       ("n_projects", SOpt "nProjects"); ("threshold", SOpt "threshold")])%list)]);
   (["IterateSampleGraph"],
    [("ut_graphical_model.ut_iterate_sample_graph", [("ut_name", SOpt "ut_name"); ("filtering_flag", SOpt "fFlag");
       ("alpha", SOpt "alpha"); ("N_ITER", SOpt "nIter"); ("ppFlag", SOpt "ppFlag"); ("threshold", SOpt "threshold")])])]%string.
(** impalib_unit_tests_kc_mwm.cpp:21-59; constants: test/include/ut_update_or_inequality_constraint.hpp:16-25,
    ut_input_output.hpp:15-24, ut_update_equality_constraint.hpp:13-26, ut_project_inequality_constraint.hpp:13-26,
    ut_knapsack.hpp:19-28, 111-120, 185-194, 260-274, ut_graphical_model.hpp:17-36, 100-109.  The number of teams is read
    from a file *)
Definition cpp_kc_branches : list (list string * cpp_function) :=
  [(["Oric2TeamUpdate"; "Oric2ProjectEcUpdate"],
    ("ut_oric", [("N_DEPARTMENTS", "N_DEPARTMENTS", RInt); ("N_PROJECTS", "N_PROJECTS", RInt)]));
   (["ExtrinsicOutputTeamUpdate"; "IntrinsicOutMwmUpdate"],
    ("ut_input_output_kc_mwm", [("N_DEPARTMENT", "N_DEPARTMENTS", RInt); ("N_PROJECTS", "N_PROJECTS", RInt)]));
   (["TeamEc2OricUpdate"; "ProjectEqConst2OricUpdate"],
    ("ut_eq_constraint_kc_mwm", [("N_DEPARTMENTS", "N_DEPARTMENTS", RInt); ("N_PROJECTS", "N_PROJECTS", RInt)]));
   (["ProjectInequalityConstraintUpdate"],
    ("ut_project_ineq_constraint", [("N_DEPARTMENTS", "N_DEPARTMENTS", RInt); ("N_PROJECTS", "N_PROJECTS", RInt)]));
   (["KnapsackForward"; "KnapsackBackward"],
    ("ut_forward_backward", [("FILT_FLAG", "FILT_FLAG", RFlag); ("Nu", "Nu", RList)]));
   (["ExtrinsicOutputDepartment"],
    ("ut_extrinsic_output_department", [("FILT_FLAG", "FILT_FLAG", RFlag); ("Nu", "Nu", RList)]));
   (["Team2KnapsackUpdate"],
    ("ut_team_to_knapsack_update", [("FILT_FLAG", "FILT_FLAG", RFlag); ("Nu", "Nu", RList)]));
   (["ProcessExtrinsicOutputDepartment"],
    ("ut_process_extrinsic_output_department", [("FILT_FLAG", "FILT_FLAG", RFlag); ("N_ITER", "N_ITER", RInt); ("Nu", "Nu", RList)]));
   (["Iterate"],
    ("ut_iterate_kc_mwm", [("N_PROJECTS", "N_PROJECTS", RInt); ("FILT_FLAG", "FILT_FLAG", RFlag); ("N_ITER", "N_ITER", RInt);
       ("Nu", "Nu", RList)]));
   (["IterateSampleGraph"],
    ("ut_iterate_sample_graph_kc_mwm", [("FILT_FLAG", "FILT_FLAG", RFlag); ("N_ITER", "N_ITER", RInt)]))]%string.
Definition python_kc (vars : shell) : option (list call) := py_main ut_kc_decls ut_kc_branches (kc_words vars).
Definition cpp_kc (vars : shell) : option (list call) := cpp_main cpp_kc_branches (env kc_exports vars).
