(** * The command line programs: src/impa/main_tsp.py, main_kc_mwm.py and main_ksat.py, and the
    constructors of src/impa/Impa.py that they call.

    argparse is modelled from its documentation and source (Python 3.8 to 3.11); it is not part of the
    repository.  Text is ASCII; the word "--" and the options of the interpreter are left out; a
    number is a sign, decimal digits and possibly a point (simplified: exponents, "inf", "nan",
    underscores and surrounding blanks are refused), and is not rounded. *)
From Coq Require Import Ascii String ZArith.
From Verif Require Import Num Arr M_Cnf.
Local Open Scope nat_scope.

(** ** argparse *)

Inductive pyv := PInt (z : Z) | PReal (x : num) | PBool (b : bool) | PStr (s : text).
(** [type=] of an option; [KHelp] is the option --help that argparse adds *)
Inductive kind := KInt | KReal | KBool | KStr | KHelp.
Record decl := { d_name : text; d_kind : kind; d_default : pyv }.
Definition opt (name : string) (k : kind) (v : pyv) : decl := {| d_name := lit name; d_kind := k; d_default := v |}.
Definition help : decl := opt "help" KHelp (PBool false).
(** a decimal fraction of the source: [m] divided by [10 ^ k] *)
Definition dec (m : Z) (k : nat) : num := Fin (Q2Qc (inject_Z m) / Q2Qc (inject_Z (10 ^ Z.of_nat k)))%Qc.

(** the part before and, if there is one, the part after the first [c] *)
Fixpoint cut (c : ascii) (s : text) : text * option text :=
  match s with
  | [] => ([], None)
  | a :: r => if (a =? c)%char then ([], Some r) else let '(x, y) := cut c r in (a :: x, y)
  end.
(** digits, at most one point, at least one digit *)
Definition unsigned_to_real (s : text) : option num :=
  match cut "."%char s with
  | (a, None) => n <- unsigned a ;; Some (dec n 0)
  | (a, Some b) => n <- unsigned (a ++ b) ;; Some (dec n (length b))
  end.
(** [np_impa_lib(s)] *)
Definition to_real (s : text) : option num :=
  match s with
  | c :: r => if (c =? "-")%char then option_map nopp (unsigned_to_real r)
              else if (c =? "+")%char then unsigned_to_real r else unsigned_to_real s
  | [] => None
  end.
(** [type(s)]; [bool(s)] of a string says whether it has characters.  [None]: argparse reports an
    error and exits *)
Definition convert (k : kind) (s : text) : option pyv :=
  match k with
  | KInt => option_map PInt (to_int s)
  | KReal => option_map PReal (to_real s)
  | KBool => Some (PBool match s with [] => false | _ => true end)
  | KStr => Some (PStr s)
  | KHelp => None
  end.

Definition teqb (a b : text) : bool := if list_eq_dec ascii_dec a b then true else false.
(** options meant by a name: the exact name, or else all names that it abbreviates *)
Definition resolve (decls : list decl) (n : text) : list decl :=
  match find (fun d => teqb n (d_name d)) decls with
  | Some d => [d]
  | None => filter (fun d => starts n (d_name d)) decls
  end.
(** argparse [_negative_number_matcher]: [-\d+] or [-\d*\.\d+] *)
Definition negative_number (s : text) : bool :=
  match s with
  | c :: r => (c =? "-")%char && match cut "."%char r with
      | (a, None) => match a with [] => false | _ => forallb is_digit a end
      | (a, Some b) => forallb is_digit a && match b with [] => false | _ => forallb is_digit b end
      end
  | [] => false
  end.
Definition has_blank (s : text) : bool := existsb (fun c => (c =? " ")%char) s.
(** argparse [_parse_optional]: is the word an argument rather than an option?  A single dash
    matches the help option -h only *)
Definition is_argument (decls : list decl) (w : text) : bool :=
  match w with
  | c :: r =>
      if negb (c =? "-")%char then true else
      match r with
      | [] => true
      | c2 :: body =>
          if (c2 =? "-")%char then
            match body, resolve decls (fst (cut "="%char body)) with
            | _ :: _, [] => has_blank w
            | _, _ => false
            end
          else if (c2 =? "h")%char then false
          else negative_number w || has_blank w
      end
  | [] => true
  end.
(** [parse_args]: later settings are put in front; [None] is SystemExit *)
Fixpoint parse (decls : list decl) (argv : list text) (ns : list (text * pyv)) : option (list (text * pyv)) :=
  match argv with
  | [] => Some ns
  | w :: rest =>
      match w with
      | c1 :: c2 :: body =>
          if (c1 =? "-")%char && (c2 =? "-")%char then
            let '(n, e) := cut "="%char body in
            match resolve decls n with
            | [d] =>
                match e with
                | Some v => x <- convert (d_kind d) v ;; parse decls rest ((d_name d, x) :: ns)
                | None =>
                    match rest with
                    | v :: rest => if is_argument decls v
                                   then x <- convert (d_kind d) v ;; parse decls rest ((d_name d, x) :: ns)
                                   else None
                    | [] => None
                    end
                end
            | _ => None
            end
          else None
      | _ => None
      end
  end.
(** [args.name] *)
Fixpoint lookup {A} (n : text) (l : list (text * A)) : option A :=
  match l with
  | [] => None
  | (m, x) :: l => if teqb n m then Some x else lookup n l
  end.
Definition arg (decls : list decl) (ns : list (text * pyv)) (n : string) : option pyv :=
  match lookup (lit n) ns with
  | Some x => Some x
  | None => option_map d_default (find (fun d => teqb (lit n) (d_name d)) decls)
  end.

(** ** Names, calls and objects *)

(** local variables of a main block: name and option *)
Definition locals (decls : list decl) (ns : list (text * pyv)) (l : list (string * string)) : option (list (text * pyv)) :=
  mapM (fun ab => v <- arg decls ns (snd ab) ;; Some (lit (fst ab), v)) l.
(** positional call: the arguments are bound to the parameters in order; [None] is TypeError or
    NameError *)
Definition bind_args (params args : list string) (env : list (text * pyv)) : option (list (text * pyv)) :=
  if negb (length params =? length args) then None else
  mapM (fun pa => v <- lookup (lit (snd pa)) env ;; Some (lit (fst pa), v)) (combine params args).
(** assignments [self.attribute = PARAMETER] *)
Definition assign_attributes (l : list (string * string)) (env : list (text * pyv)) : option (list (text * pyv)) :=
  mapM (fun ab => v <- lookup (lit (snd ab)) env ;; Some (lit (fst ab), v)) l.
(** reading of typed values *)
Definition as_int (v : pyv) : option Z := match v with PInt z => Some z | _ => None end.
Definition as_str (v : pyv) : option text := match v with PStr s => Some s | _ => None end.
(** truth value of a number, bool or string *)
Definition truth (v : pyv) : bool :=
  match v with
  | PInt z => negb (z =? 0)%Z
  | PReal x => negb (neqb x n0)
  | PBool b => b
  | PStr s => match s with [] => false | _ => true end
  end.
(** [str(z)] *)
Definition str_int (z : Z) : text := if (z <? 0)%Z then lit "-" ++ str_nat (Z.to_nat (- z)) else str_nat (Z.to_nat z).

(** What a program does with its command line: it stops, or goes on with a solver object, the
    input file to open (if any) and whether results are saved.  [None] of a program is SystemExit. *)
Record program := { g_object : list (text * pyv); g_folder : text; g_input : option text; g_save : bool }.

(** ** main_tsp.py *)

(** 12-61 *)
Definition tsp_decls : list decl :=
  [help;
   opt "nITER" KInt (PInt 400);
   opt "nNodes" KInt (PInt 10);
   opt "threshold" KReal (PReal (dec (-1) 4));
   opt "symFlag" KBool (PBool false);
   opt "augmFlag" KBool (PBool false);
   opt "exactSolFlag" KBool (PBool false);
   opt "lkhSolFlag" KBool (PBool true);
   opt "simAnnSolFlag" KBool (PBool false);
   opt "resetFlag" KBool (PBool false);
   opt "filteringFlag" KBool (PBool false);
   opt "alpha" KReal (PReal (dec 7 1));
   opt "testFile" KInt (PInt 9000);
   opt "saveFlag" KBool (PBool false);
   opt "randomTestFlag" KBool (PBool false);
   opt "inputPath" KStr (PStr (lit "../../data/impa_input"));
   opt "outputPath" KStr (PStr (lit "../../data/impa_output"));
   opt "maxCount" KInt (PInt 10);
   opt "PPFlag" KBool (PBool true);
   opt "KOPTFlag" KBool (PBool false);
   opt "maxAugmCount" KInt (PInt 200)].
(** 68-87 *)
Definition tsp_locals : list (string * string) :=
  [("NUM_ITERATIONS", "nITER"); ("NUM_NODES", "nNodes"); ("THRESHOLD", "threshold"); ("SYMMETRIC_FLAG", "symFlag");
   ("AUGMENTATION_FLAG", "augmFlag"); ("EXACT_SOLVER_FLAG", "exactSolFlag"); ("LKH_SOLVER_FLAG", "lkhSolFlag");
   ("SIM_ANNEALING_FLAG", "simAnnSolFlag"); ("RESET_FLAG", "resetFlag"); ("FILTERING_FLAG", "filteringFlag");
   ("ALPHA", "alpha"); ("test_file", "testFile"); ("SAVE_FLAG", "saveFlag"); ("RANDOM_TEST_FLAG", "randomTestFlag");
   ("input_path", "inputPath"); ("output_path", "outputPath"); ("MAX_COUNT", "maxCount"); ("POST_PROCESS_FLAG", "PPFlag");
   ("K_OPT_FLAG", "KOPTFlag"); ("MAX_AUGM_COUNT", "maxAugmCount")]%string.
(** 93-110 *)
Definition tsp_args : list string :=
  ["NUM_ITERATIONS"; "NUM_NODES"; "SYMMETRIC_FLAG"; "AUGMENTATION_FLAG"; "EXACT_SOLVER_FLAG"; "LKH_SOLVER_FLAG";
   "SIM_ANNEALING_FLAG"; "RESET_FLAG"; "FILTERING_FLAG"; "ALPHA"; "THRESHOLD"; "RANDOM_TEST_FLAG"; "MAX_COUNT";
   "POST_PROCESS_FLAG"; "K_OPT_FLAG"; "MAX_AUGM_COUNT"]%string.
(** Impa.py:73-88 *)
Definition tsp_params : list string :=
  ["NUM_ITERATIONS"; "NUM_NODES"; "SYMMETRIC_FLAG"; "AUGMENTATION_FLAG"; "EXACT_SOLVER_FLAG"; "LKH_SOLVER_FLAG";
   "SIM_ANNEALING_FLAG"; "RESET_FLAG"; "FILTERING_FLAG"; "ALPHA"; "THRESHOLD"; "RANDOM_TEST_FLAG"; "MAX_COUNT";
   "POST_PROCESS_FLAG"; "K_OPT_FLAG"; "MAX_AUGM_COUNT"]%string.
(** Impa.py:90-105 *)
Definition tsp_attributes : list (string * string) :=
  [("num_iterations", "NUM_ITERATIONS"); ("num_nodes", "NUM_NODES"); ("threshold", "THRESHOLD");
   ("symmetric_flag", "SYMMETRIC_FLAG"); ("augmentation_flag", "AUGMENTATION_FLAG");
   ("exact_solver_flag", "EXACT_SOLVER_FLAG"); ("lkh_solver_flag", "LKH_SOLVER_FLAG");
   ("sim_annealing_flag", "SIM_ANNEALING_FLAG"); ("reset_flag", "RESET_FLAG"); ("filtering_flag", "FILTERING_FLAG");
   ("alpha", "ALPHA"); ("random_test_flag", "RANDOM_TEST_FLAG"); ("max_count", "MAX_COUNT");
   ("post_process_flag", "POST_PROCESS_FLAG"); ("k_opt_flag", "K_OPT_FLAG"); ("max_augm_count", "MAX_AUGM_COUNT")]%string.

(** ["{:.1f}".format(q)]: rounded to the nearest, or else even, tenth *)
Definition tenths (n d : Z) : Z :=
  let f := (10 * n / d)%Z in
  let r := (10 * n mod d)%Z in
  if (2 * r <? d)%Z then f else if (d <? 2 * r)%Z then (f + 1)%Z else if Z.even f then f else (f + 1)%Z.
Definition fmt (v : pyv) : text :=
  match v with
  | PReal (Fin q) =>
      let n := Qnum (this q) in
      let m := Z.to_nat (tenths (Z.abs n) (Zpos (Qden (this q)))) in
      (if (n <? 0)%Z then lit "-" else []) ++ str_nat (m / 10) ++ lit "." ++ [digit (m mod 10)]
  | _ => []
  end.
(** main_tsp.py:113-123 and main_ksat.py:94-104: the folder for the results *)
Definition output_folder (filtering pp : bool) (alpha : pyv) (path : text) : text :=
  let base := if filtering then lit "../../data/" ++ path ++ lit "_alpha" ++ fmt alpha else lit "../../data/" ++ path in
  if pp then base ++ lit "_pp" else base.
(** main_tsp.py:113, 140-144 and main_ksat.py:91, 121-125 *)
Definition input_file (random : bool) (path : text) (file : Z) : option text :=
  if random then None else Some ((lit "../../data/" ++ path) ++ lit "/inputs_set" ++ str_int file ++ lit ".pkl").

(** 67-144: up to the loading of the input *)
Definition main_tsp (argv : list text) : option program :=
  ns <- parse tsp_decls argv [] ;;
  env <- locals tsp_decls ns tsp_locals ;;
  ps <- bind_args tsp_params tsp_args env ;;
  obj <- assign_attributes tsp_attributes ps ;;
  filt <- lookup (lit "FILTERING_FLAG") env ;;
  pp <- lookup (lit "POST_PROCESS_FLAG") env ;;
  alpha <- lookup (lit "ALPHA") env ;;
  out <- bind (lookup (lit "output_path") env) as_str ;;
  inp <- bind (lookup (lit "input_path") env) as_str ;;
  file <- bind (lookup (lit "test_file") env) as_int ;;
  random <- lookup (lit "RANDOM_TEST_FLAG") env ;;
  save <- lookup (lit "SAVE_FLAG") env ;;
  Some {| g_object := obj; g_folder := output_folder (truth filt) (truth pp) alpha out;
          g_input := input_file (truth random) inp file; g_save := truth save |}.

(** ** main_ksat.py *)

(** 11-45 *)
Definition ksat_decls : list decl :=
  [help;
   opt "nITER" KInt (PInt 200);
   opt "nVariables" KInt (PInt 10);
   opt "nConstraints" KInt (PInt 3);
   opt "kVariable" KInt (PInt 3);
   opt "threshold" KReal (PReal (dec (-1) 4));
   opt "PPElements" KInt (PInt 2);
   opt "filteringFlag" KBool (PBool true);
   opt "alpha" KReal (PReal (dec 5 1));
   opt "testFile" KInt (PInt 9000);
   opt "saveFlag" KBool (PBool false);
   opt "typeMetrics" KInt (PInt 0);
   opt "var" KReal (PInt 3);
   opt "overwrite" KBool (PBool false);
   opt "PPFlag" KBool (PBool false);
   opt "randomTestFlag" KBool (PBool false);
   opt "inputPath" KStr (PStr (lit "../../data/impa_input"));
   opt "outputPath" KStr (PStr (lit "../../data/impa_output"))].
(** 52-68 *)
Definition ksat_locals : list (string * string) :=
  [("NUM_ITERATIONS", "nITER"); ("NUM_VARIABLES", "nVariables"); ("NUM_CONSTRAINTS", "nConstraints");
   ("K_VARIABLE", "kVariable"); ("THRESHOLD", "threshold"); ("FILTERING_FLAG", "filteringFlag"); ("ALPHA", "alpha");
   ("test_file", "testFile"); ("SAVE_FLAG", "saveFlag"); ("RANDOM_TEST_FLAG", "randomTestFlag");
   ("input_path", "inputPath"); ("output_path", "outputPath"); ("POST_PROCESS_FLAG", "PPFlag");
   ("TYPE_METRICS", "typeMetrics"); ("PP_ELEMENTS", "PPElements"); ("IM_VARIANCE", "var"); ("OVERWRITE", "overwrite")]%string.
(** 78-92 *)
Definition ksat_args : list string :=
  ["NUM_ITERATIONS"; "NUM_VARIABLES"; "NUM_CONSTRAINTS"; "K_VARIABLE"; "FILTERING_FLAG"; "ALPHA"; "THRESHOLD";
   "RANDOM_TEST_FLAG"; "POST_PROCESS_FLAG"; "TYPE_METRICS"; "PP_ELEMENTS"; "IM_VARIANCE"; "OVERWRITE"]%string.
(** Impa.py:2238-2250 *)
Definition ksat_params : list string :=
  ["NUM_ITERATIONS"; "NUM_VARIABLES"; "NUM_CONSTRAINTS"; "K_VARIABLE"; "FILTERING_FLAG"; "ALPHA"; "THRESHOLD";
   "RANDOM_TEST_FLAG"; "POST_PROCESS_FLAG"; "TYPE_METRICS"; "PP_ELEMENTS"; "IM_VARIANCE"; "OVERWRITE"]%string.
(** Impa.py:2252-2265 (without the constant [num_decisions]) *)
Definition ksat_attributes : list (string * string) :=
  [("num_iterations", "NUM_ITERATIONS"); ("num_variables", "NUM_VARIABLES"); ("num_constraints", "NUM_CONSTRAINTS");
   ("k_variable", "K_VARIABLE"); ("threshold", "THRESHOLD"); ("filtering_flag", "FILTERING_FLAG"); ("alpha", "ALPHA");
   ("random_test_flag", "RANDOM_TEST_FLAG"); ("type_metrics", "TYPE_METRICS"); ("pp_elements", "PP_ELEMENTS");
   ("var", "IM_VARIANCE"); ("overwrite", "OVERWRITE"); ("post_process_flag", "POST_PROCESS_FLAG")]%string.

(** 51-125; 70-72: the program exits if the clauses are as large as the number of variables *)
Definition main_ksat (argv : list text) : option program :=
  ns <- parse ksat_decls argv [] ;;
  env <- locals ksat_decls ns ksat_locals ;;
  k <- bind (lookup (lit "K_VARIABLE") env) as_int ;;
  nv <- bind (lookup (lit "NUM_VARIABLES") env) as_int ;;
  if (nv <=? k)%Z then None else
  ps <- bind_args ksat_params ksat_args env ;;
  obj <- assign_attributes ksat_attributes ps ;;
  filt <- lookup (lit "FILTERING_FLAG") env ;;
  pp <- lookup (lit "POST_PROCESS_FLAG") env ;;
  alpha <- lookup (lit "ALPHA") env ;;
  out <- bind (lookup (lit "output_path") env) as_str ;;
  inp <- bind (lookup (lit "input_path") env) as_str ;;
  file <- bind (lookup (lit "test_file") env) as_int ;;
  random <- lookup (lit "RANDOM_TEST_FLAG") env ;;
  save <- lookup (lit "SAVE_FLAG") env ;;
  Some {| g_object := obj; g_folder := output_folder (truth filt) (truth pp) alpha out;
          g_input := input_file (truth random) inp file; g_save := truth save |}.

(** ** main_kc_mwm.py *)

(** 14-25 *)
Definition kc_decls : list decl :=
  [help;
   opt "nITER" KInt (PInt 400);
   opt "filteringFlag" KBool (PBool false);
   opt "alpha" KReal (PReal (dec 0 1));
   opt "PPFlag" KBool (PBool true);
   opt "threshold" KReal (PReal (dec (-1) 4));
   opt "PPOption" KInt (PInt 1);
   opt "path" KStr (PStr (lit "impa"))].
(** 37-43 *)
Definition kc_locals : list (string * string) :=
  [("NUM_ITERATIONS", "nITER"); ("FILTERING_FLAG", "filteringFlag"); ("POST_PROCESS_FLAG", "PPFlag"); ("ALPHA", "alpha");
   ("THRESHOLD", "threshold"); ("PP_OPTION", "PPOption"); ("output_path", "path")]%string.
(** 49 *)
Definition kc_args : list string :=
  ["NUM_ITERATIONS"; "FILTERING_FLAG"; "POST_PROCESS_FLAG"; "ALPHA"; "THRESHOLD"; "PP_OPTION"]%string.
(** Impa.py:1140-1145 *)
Definition kc_params : list string :=
  ["NUM_ITERATIONS"; "FILTERING_FLAG"; "POST_PROCESS_FLAG"; "ALPHA"; "THRESHOLD"; "PP_OPTION"]%string.
(** Impa.py:1147-1152 *)
Definition kc_attributes : list (string * string) :=
  [("num_iterations", "NUM_ITERATIONS"); ("filtering_flag", "FILTERING_FLAG"); ("post_process_flag", "POST_PROCESS_FLAG");
   ("alpha", "ALPHA"); ("threshold", "THRESHOLD"); ("post_process_option", "PP_OPTION")]%string.
(** 36-49; the input files are fixed (54-61): their names are the result *)
Definition main_kc (argv : list text) : option (list (text * pyv) * list text) :=
  ns <- parse kc_decls argv [] ;;
  env <- locals kc_decls ns kc_locals ;;
  ps <- bind_args kc_params kc_args env ;;
  obj <- assign_attributes kc_attributes ps ;;
  Some (obj, map (fun setfile => lit "../../data/inputs_1000" ++ lit "/inputs_set" ++ str_nat setfile ++ lit ".pkl") (seq 0 1)).
