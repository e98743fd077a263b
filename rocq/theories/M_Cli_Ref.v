(** * The programs of the reference implementation: test/python_tsp/src/main_tsp.py,
    test/python_ksat/src/main_ksat.py and test/python_kc_mwm/src/main_pure_optimized.py, with the
    constructors of their solver classes.  argparse as in M_Cli. *)
From Coq Require Import Ascii String ZArith.
From Verif Require Import Num Arr M_Cnf M_Cli.
Local Open Scope nat_scope.

(** [r_calls]: the methods called on the solver object, in order; [r_missing]: the first of them that
    the class does not have (AttributeError at that point) *)
Record ref_run := { r_program : program; r_calls : list text; r_missing : option text }.
Definition first_missing (methods : list string) (calls : list text) : option text :=
  find (fun c => negb (existsb (fun m => teqb c (lit m)) methods)) calls.
(** main_tsp.py:156-163, main_ksat.py:110-113 *)
Definition ref_input (folder : text) (random : bool) (file : Z) : option text :=
  if random then None else Some (folder ++ lit "/inputs_set" ++ str_int file ++ lit ".pkl").

(** ** python_tsp *)

(** main_tsp.py:11-100 *)
Definition rtsp_decls : list decl :=
  [help;
   opt "nITER" KInt (PInt 400);
   opt "nNodes" KInt (PInt 10);
   opt "threshold" KReal (PReal (dec (-1) 4));
   opt "symFlag" KBool (PBool false);
   opt "augmFlag" KBool (PBool false);
   opt "exactSolFlag" KBool (PBool false);
   opt "lkhSolFlag" KBool (PBool true);
   opt "simAnnSolFlag" KBool (PBool false);
   opt "nSamples" KInt (PInt 1000);
   opt "resetFlag" KBool (PBool false);
   opt "filteringFlag" KBool (PBool false);
   opt "alpha" KReal (PReal (dec 5 1));
   opt "testFile" KInt (PInt 9000);
   opt "saveFlag" KBool (PBool false);
   opt "randomTestFlag" KBool (PBool false)].
(** main_tsp.py:106-120 *)
Definition rtsp_locals : list (string * string) :=
  [("NUM_ITERATIONS", "nITER"); ("NUM_NODES", "nNodes"); ("THRESHOLD", "threshold"); ("SYMMETRIC_FLAG", "symFlag");
   ("AUGMENTATION_FLAG", "augmFlag"); ("EXACT_SOLVER_FLAG", "exactSolFlag"); ("LKH_SOLVER_FLAG", "lkhSolFlag");
   ("SIM_ANNEALING_FLAG", "simAnnSolFlag"); ("NUM_AUGMENTED_SAMPLES_PER_SUBTOUR_SIZE", "nSamples"); ("RESET_FLAG", "resetFlag");
   ("FILTERING_FLAG", "filteringFlag"); ("ALPHA", "alpha"); ("test_file", "testFile"); ("SAVE_FLAG", "saveFlag");
   ("RANDOM_TEST_FLAG", "randomTestFlag")]%string.
(** main_tsp.py:124-138 *)
Definition rtsp_args : list string :=
  ["NUM_ITERATIONS"; "NUM_NODES"; "SYMMETRIC_FLAG"; "AUGMENTATION_FLAG"; "EXACT_SOLVER_FLAG"; "LKH_SOLVER_FLAG";
   "SIM_ANNEALING_FLAG"; "NUM_AUGMENTED_SAMPLES_PER_SUBTOUR_SIZE"; "RESET_FLAG"; "FILTERING_FLAG"; "ALPHA"; "THRESHOLD";
   "RANDOM_TEST_FLAG"]%string.
(** python_tsp/src/graphical_model.py:13-25 *)
Definition rtsp_params : list string :=
  ["NUM_ITERATIONS"; "NUM_NODES"; "SYMMETRIC_FLAG"; "AUGMENTATION_FLAG"; "EXACT_SOLVER_FLAG"; "LKH_SOLVER_FLAG";
   "SIM_ANNEALING_FLAG"; "NUM_AUGMENTED_SAMPLES_PER_SUBTOUR_SIZE"; "RESET_FLAG"; "FILTERING_FLAG"; "ALPHA"; "THRESHOLD";
   "RANDOM_TEST_FLAG"]%string.
(** python_tsp/src/graphical_model.py:27-39 *)
Definition rtsp_attributes : list (string * string) :=
  [("num_iterations", "NUM_ITERATIONS"); ("num_nodes", "NUM_NODES"); ("threshold", "THRESHOLD");
   ("symmetric_flag", "SYMMETRIC_FLAG"); ("augmentation_flag", "AUGMENTATION_FLAG");
   ("exact_solver_flag", "EXACT_SOLVER_FLAG"); ("lkh_solver_flag", "LKH_SOLVER_FLAG");
   ("sim_annealing_flag", "SIM_ANNEALING_FLAG");
   ("num_augmented_samples_per_subtour_size", "NUM_AUGMENTED_SAMPLES_PER_SUBTOUR_SIZE"); ("reset_flag", "RESET_FLAG");
   ("filtering_flag", "FILTERING_FLAG"); ("alpha", "ALPHA"); ("random_test_flag", "RANDOM_TEST_FLAG")]%string.
(** python_tsp/src/graphical_model.py: the [def] lines 41, 138, 175, 192, 250, 300, 332, 421, 470, 490, 513, 541, 557 *)
Definition rtsp_methods : list string :=
  ["initialize"; "create_cost_matrix"; "iterate_relaxed_graph"; "pre_analysis"; "iterate_augmented_graph";
   "find_closed_loop_new"; "get_closed_loops"; "subtour_elimination_constraints_analysis"; "hard_decision_analysis";
   "solve_tsp_exact"; "solve_tsp_lkh"; "solve_tsp_simulated_annealing"; "save_outputs"]%string.
(** main_tsp.py:102-174 *)
Definition ref_tsp (argv : list text) : option ref_run :=
  ns <- parse rtsp_decls argv [] ;;
  env <- locals rtsp_decls ns rtsp_locals ;;
  ps <- bind_args rtsp_params rtsp_args env ;;
  obj <- assign_attributes rtsp_attributes ps ;;
  alpha <- lookup (lit "ALPHA") env ;;
  file <- bind (lookup (lit "test_file") env) as_int ;;
  random <- lookup (lit "RANDOM_TEST_FLAG") env ;;
  stored <- lookup (lit "random_test_flag") obj ;;
  save <- lookup (lit "SAVE_FLAG") env ;;
  let calls := [lit "initialize"; lit "iterate_relaxed_graph"; lit "pre_analysis"] ++
               (if truth save && negb (truth stored) then [lit "save_outputs"] else []) in
  Some {| r_program := {| g_object := obj; g_folder := lit "../../../data/outputs_fixed_1000_alpha" ++ fmt alpha;
                          g_input := ref_input (lit "../../../data/inputs_fixed_1000_nNodes15") (truth random) file; g_save := truth save |};
          r_calls := calls; r_missing := first_missing rtsp_methods calls |}.

(** ** python_ksat *)

(** main_ksat.py:12-42 *)
Definition rksat_decls : list decl :=
  [help;
   opt "nITER" KInt (PInt 200);
   opt "nVariables" KInt (PInt 10);
   opt "nConstraints" KInt (PInt 3);
   opt "kVariable" KInt (PInt 3);
   opt "threshold" KReal (PReal (dec (-1) 4));
   opt "exactSolFlag" KBool (PBool false);
   opt "filteringFlag" KBool (PBool true);
   opt "alpha" KReal (PReal (dec 5 1));
   opt "testFile" KInt (PInt 9000);
   opt "saveFlag" KBool (PBool false);
   opt "randomTestFlag" KBool (PBool true);
   opt "inputPath" KStr (PStr (lit "../../data/impa_input"));
   opt "outputPath" KStr (PStr (lit "../../data/impa_output"));
   opt "PPFlag" KBool (PBool true)].
(** main_ksat.py:49-62 *)
Definition rksat_locals : list (string * string) :=
  [("NUM_ITERATIONS", "nITER"); ("NUM_VARIABLES", "nVariables"); ("NUM_CONSTRAINTS", "nConstraints");
   ("K_VARIABLE", "kVariable"); ("THRESHOLD", "threshold"); ("EXACT_SOLVER_FLAG", "exactSolFlag");
   ("FILTERING_FLAG", "filteringFlag"); ("ALPHA", "alpha"); ("test_file", "testFile"); ("SAVE_FLAG", "saveFlag");
   ("RANDOM_TEST_FLAG", "randomTestFlag"); ("input_path", "inputPath"); ("output_path", "outputPath");
   ("POST_PROCESS_FLAG", "PPFlag")]%string.
(** main_ksat.py:68-79 *)
Definition rksat_args : list string :=
  ["NUM_ITERATIONS"; "NUM_VARIABLES"; "NUM_CONSTRAINTS"; "K_VARIABLE"; "EXACT_SOLVER_FLAG"; "FILTERING_FLAG"; "ALPHA";
   "THRESHOLD"; "RANDOM_TEST_FLAG"; "POST_PROCESS_FLAG"]%string.
(** python_ksat/src/graphical_model.py:12-21 *)
Definition rksat_params : list string :=
  ["NUM_ITERATIONS"; "NUM_VARIABLES"; "NUM_CONSTRAINTS"; "K_VARIABLE"; "EXACT_SOLVER_FLAG"; "FILTERING_FLAG"; "ALPHA";
   "THRESHOLD"; "RANDOM_TEST_FLAG"; "POST_PROCESS_FLAG"]%string.
(** python_ksat/src/graphical_model.py:23-31 *)
Definition rksat_attributes : list (string * string) :=
  [("num_iterations", "NUM_ITERATIONS"); ("num_variables", "NUM_VARIABLES"); ("num_constraints", "NUM_CONSTRAINTS");
   ("k_variable", "K_VARIABLE"); ("threshold", "THRESHOLD"); ("exact_solver_flag", "EXACT_SOLVER_FLAG");
   ("filtering_flag", "FILTERING_FLAG"); ("alpha", "ALPHA"); ("random_test_flag", "RANDOM_TEST_FLAG")]%string.
(** python_ksat/src/graphical_model.py: the [def] lines 33, 118, 165, 195 *)
Definition rksat_methods : list string :=
  ["initialize"; "create_incoming_metrics_cost"; "run_impa"; "hard_decision_analysis"]%string.
(** main_ksat.py:44-125 *)
Definition ref_ksat (argv : list text) : option ref_run :=
  ns <- parse rksat_decls argv [] ;;
  env <- locals rksat_decls ns rksat_locals ;;
  ps <- bind_args rksat_params rksat_args env ;;
  obj <- assign_attributes rksat_attributes ps ;;
  filt <- lookup (lit "FILTERING_FLAG") env ;;
  pp <- lookup (lit "POST_PROCESS_FLAG") env ;;
  alpha <- lookup (lit "ALPHA") env ;;
  out <- bind (lookup (lit "output_path") env) as_str ;;
  inp <- bind (lookup (lit "input_path") env) as_str ;;
  file <- bind (lookup (lit "test_file") env) as_int ;;
  random <- lookup (lit "RANDOM_TEST_FLAG") env ;;
  stored <- lookup (lit "random_test_flag") obj ;;
  save <- lookup (lit "SAVE_FLAG") env ;;
  let calls := [lit "initialize"; lit "run_impa"] ++
               (if truth save && negb (truth stored) then [lit "save_outputs"] else []) in
  Some {| r_program := {| g_object := obj; g_folder := output_folder (truth filt) (truth pp) alpha out;
                          g_input := ref_input (lit "../../data/" ++ inp) (truth random) file; g_save := truth save |};
          r_calls := calls; r_missing := first_missing rksat_methods calls |}.

(** ** python_kc_mwm *)

(** main_pure_optimized.py:11-15 *)
Definition rkc_decls : list decl :=
  [help;
   opt "nITER" KInt (PInt 400);
   opt "filteringFlag" KBool (PBool false);
   opt "alpha" KReal (PReal (dec 0 1));
   opt "PPFlag" KBool (PBool true);
   opt "threshold" KReal (PReal (dec (-1) 4))].
(** main_pure_optimized.py:29-33 *)
Definition rkc_locals : list (string * string) :=
  [("NUM_ITERATIONS", "nITER"); ("FILTERING_FLAG", "filteringFlag"); ("POST_PROCESS_FLAG", "PPFlag"); ("ALPHA", "alpha");
   ("THRESHOLD", "threshold")]%string.
(** main_pure_optimized.py:35 *)
Definition rkc_args : list string := ["NUM_ITERATIONS"; "FILTERING_FLAG"; "POST_PROCESS_FLAG"; "ALPHA"; "THRESHOLD"]%string.
(** python_kc_mwm/src/graphical_model.py:25 *)
Definition rkc_params : list string := ["NUM_ITERATIONS"; "FILTERING_FLAG"; "POST_PROCESS_FLAG"; "ALPHA"; "THRESHOLD"]%string.
(** python_kc_mwm/src/graphical_model.py:26-30 *)
Definition rkc_attributes : list (string * string) :=
  [("num_iterations", "NUM_ITERATIONS"); ("filtering_flag", "FILTERING_FLAG"); ("post_process_flag", "POST_PROCESS_FLAG");
   ("alpha", "ALPHA"); ("threshold", "THRESHOLD")]%string.
(** main_pure_optimized.py:17-39; the input files are fixed: their names are the result *)
Definition ref_kc (argv : list text) : option (list (text * pyv) * list text) :=
  ns <- parse rkc_decls argv [] ;;
  env <- locals rkc_decls ns rkc_locals ;;
  ps <- bind_args rkc_params rkc_args env ;;
  obj <- assign_attributes rkc_attributes ps ;;
  Some (obj, map (fun setfile => lit "../../../data/inputs_1000" ++ lit "/inputs_set" ++ str_nat setfile ++ lit ".pkl") (seq 0 1)).
