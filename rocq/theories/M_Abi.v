(** * Model: how values travel from Python to the C++ entry points and back.

    src/impa/cFunctionAPI.py (declared argument types), the calls in src/impa/Impa.py and the
    parameter lists in src/impa/Wrapper.cpp.  The conversions of ctypes and the calling
    conventions are modelled from their documentation (x86-64 System V ABI 3.2.3); they are not
    part of the repository. *)
From Coq Require Import String.
From Verif Require Import Num Arr.
Local Open Scope nat_scope.
Local Open Scope string_scope.

(** C types that occur in the argument lists, [impalib_type] being [double]
    (common.hpp:31, cFunctionAPI.py:21-23). *)
Inductive elem := EInt | EBool | EDouble.
Inductive ctype := TInt | TBool | TDouble | TPtr (e : elem).

(** Python values handed to ctypes: [np.int32], [bool], [np.float64], result of
    [data_as(POINTER(..))] with its address. *)
Inductive value := VInt (z : Z) | VBool (b : bool) | VReal (x : num) | VPtr (e : elem) (a : Z).

(** What a 64-bit register or stack slot holds: a word or a double. *)
Inductive cell := Word (w : Z) | Real (x : num).

Definition elem_eqb (a b : elem) : bool :=
  match a, b with EInt, EInt | EBool, EBool | EDouble, EDouble => true | _, _ => false end.

(** ctypes conversion of an argument to its declared type.  Only the low 32 (8) bits of the word
    carry an [int] ([bool]); [hi] stands for the others.  [None] is [ArgumentError]. *)
Definition encode (t : ctype) (v : value) (hi : Z) : option cell :=
  match t, v with
  | TInt, VInt z => Some (Word (z mod 2 ^ 32 + 2 ^ 32 * hi))
  | TBool, VBool b => Some (Word ((if b then 1 else 0) + 2 ^ 8 * hi))
  | TDouble, VReal x => Some (Real x)
  | TPtr e, VPtr e' a => if elem_eqb e e' then Some (Word a) else None
  | _, _ => None
  end%Z.

(** How the C++ function reads a parameter of a given type from its cell.  [None]: the bytes are
    those of a value of another kind. *)
Definition decode (t : ctype) (c : cell) : option value :=
  match t, c with
  | TInt, Word w => let u := (w mod 2 ^ 32)%Z in
                    Some (VInt (if u <? 2 ^ 31 then u else u - 2 ^ 32)%Z)
  | TBool, Word w => Some (VBool (negb (w mod 2 ^ 8 =? 0)%Z))
  | TDouble, Real x => Some (VReal x)
  | TPtr e, Word w => Some (VPtr e w)
  | _, _ => None
  end.

(** System V 3.2.3: [int], [bool] and pointers are of class INTEGER, [double] of class SSE. *)
Definition is_sse (t : ctype) : bool := match t with TDouble => true | _ => false end.

(** Where the cells go: [ni] general and [nf] vector registers left, then the stack in order. *)
Fixpoint place (ni nf : nat) (args : list (ctype * cell)) : list cell * list cell * list cell :=
  match args with
  | [] => ([], [], [])
  | (t, c) :: r =>
      if is_sse t then
        match nf with
        | S nf' => let '(g, x, s) := place ni nf' r in (g, c :: x, s)
        | 0 => let '(g, x, s) := place ni nf r in (g, x, c :: s)
        end
      else
        match ni with
        | S ni' => let '(g, x, s) := place ni' nf r in (c :: g, x, s)
        | 0 => let '(g, x, s) := place ni nf r in (g, x, c :: s)
        end
  end.

(** Where the called function looks for its parameters. *)
Fixpoint fetch (ni nf : nat) (params : list ctype) (g x s : list cell) : option (list cell) :=
  match params with
  | [] => Some []
  | t :: r =>
      if is_sse t then
        match nf, x with
        | S nf', c :: x' => l <- fetch ni nf' r g x' s ;; Some (c :: l)
        | S _, [] => None
        | 0, _ => match s with c :: s' => l <- fetch ni nf r g x s' ;; Some (c :: l) | [] => None end
        end
      else
        match ni, g with
        | S ni', c :: g' => l <- fetch ni' nf r g' x s ;; Some (c :: l)
        | S _, [] => None
        | 0, _ => match s with c :: s' => l <- fetch ni nf r g x s' ;; Some (c :: l) | [] => None end
        end
  end.

(** A convention moves the cells of the declared arguments to those of the parameters. *)
Definition convention := list (ctype * cell) -> list ctype -> option (list cell).

Definition by_class (ni nf : nat) : convention := fun args params =>
  let '(g, x, s) := place ni nf args in fetch ni nf params g x s.

(** Linux on x86-64: six general and eight vector registers. *)
Definition sysv : convention := by_class 6 8.

(** AArch64 (the .dylib line of cFunctionAPI.py:12): eight and eight. *)
Definition aapcs64 : convention := by_class 8 8.

(** A convention that goes by position only (32-bit x86 stack, Microsoft x64). *)
Definition by_position : convention := fun args params => Some (map snd args).

(** Expressions in the Python calls. *)
Inductive pyexpr := Int32 (attr : string)      (* np.int32(self.attr) *)
                  | Flag (attr : string)       (* self.attr *)
                  | Float (attr : string)      (* np_impa_lib(self.attr) *)
                  | Var (name : string).       (* local variable holding a pointer *)

(** One foreign call: declared types, argument expressions, the names the caller unpacks the
    tuple returned by [process_inputs_ctypes] into, and that tuple; C++ parameters. *)
Record foreign := {
  f_argtypes : list ctype;
  f_call : list pyexpr;
  f_unpack : list string;
  f_returned : list string;
  f_params : list (string * ctype)
}.

Fixpoint assoc {A} (k : string) (l : list (string * A)) : option A :=
  match l with [] => None | (k', v) :: t => if String.eqb k k' then Some v else assoc k t end.

(** [q] gives the value of every Python quantity (attribute or buffer). *)
Definition eval (f : foreign) (q : string -> value) (e : pyexpr) : option value :=
  match e with
  | Int32 a | Flag a | Float a => Some (q a)
  | Var x => b <- assoc x (combine (f_unpack f) (f_returned f)) ;; Some (q b)
  end.

Fixpoint zipM {A B C} (g : A -> B -> option C) (l : list A) (m : list B) : option (list C) :=
  match l, m with
  | [], [] => Some []
  | a :: l', b :: m' => c <- g a b ;; r <- zipM g l' m' ;; Some (c :: r)
  | _, _ => None
  end.

(** The values the C++ parameters have on entry; [hi] are the unused bits of argument number [i].
    A different number of arguments and types is an error in ctypes. *)
Definition foreign_call (conv : convention) (f : foreign) (q : string -> value) (hi : nat -> Z)
  : option (list value) :=
  vals <- mapM (eval f q) (f_call f) ;;
  cells <- zipM (fun t vh => c <- encode t (fst vh) (snd vh) ;; Some (t, c)) (f_argtypes f)
             (combine vals (map hi (seq 0 (length vals)))) ;;
  got <- conv cells (map snd (f_params f)) ;;
  zipM decode (map snd (f_params f)) got.

Definition ip := TPtr EInt.
Definition bp := TPtr EBool.
Definition dp := TPtr EDouble.

(** WrapperTsp: cFunctionAPI.py:31-59, Impa.py:211-260 and :335-353, Wrapper.cpp:86-91. *)
Definition tsp_returned : list string :=
  [ "edge_connection_flatten_p"; "cost_edge_variable_flatten_p"; "cost_matrix_flatten_p";
    "edge_ec_to_degree_constraint_m_flatten_p"; "edge_degree_constraint_cost_flatten_p";
    "extrinsic_output_edge_ec_p"; "num_augmentations_p"; "tour_impa_flatten_p"; "cost_impa_p";
    "selected_edges_p"; "selected_edges_size_p"; "no_improvement_sol_count_exceeded_flag_p";
    "no_consecutive_loops_count_exceeded_flag_p"; "sol_oscillation_count_exceeded_flag_p";
    "subtour_paths_flatten_p"; "subtour_paths_size_flatten_p"; "num_added_constraints_p" ].

Definition tsp_foreign : foreign := {|
  f_argtypes := [ TInt; TInt; TInt; TBool; TBool; TDouble; TBool; ip; dp; dp; dp; dp; dp; TDouble;
                  ip; ip; dp; bp; bp; ip; ip; bp; ip; ip; TInt; ip; TInt ];
  f_call := [ Int32 "num_iterations"; Int32 "num_nodes"; Int32 "num_edge_variables";
              Flag "augmentation_flag"; Flag "reset_flag"; Float "alpha"; Flag "filtering_flag";
              Var "edge_connection_flatten_p"; Var "cost_edge_variable_flatten_p";
              Var "cost_matrix_flatten_p"; Var "edge_ec_to_degree_constraint_m_flatten_p";
              Var "edge_degree_constraint_cost_flatten_p"; Var "extrinsic_output_edge_ec_p";
              Float "threshold"; Var "num_augmentations_p"; Var "tour_impa_flatten_p";
              Var "cost_impa_p"; Var "no_improvement_sol_count_exceeded_flag_p";
              Var "no_consecutive_loops_count_exceeded_flag_p"; Var "selected_edges_p";
              Var "selected_edges_size_p"; Var "sol_oscillation_count_exceeded_flag_p";
              Var "subtour_paths_flatten_p"; Var "subtour_paths_size_flatten_p";
              Int32 "max_count"; Var "num_added_constraints_p"; Int32 "max_augm_count" ];
  f_unpack :=
  [ "edge_connection_flatten_p"; "cost_edge_variable_flatten_p"; "cost_matrix_flatten_p";
    "edge_ec_to_degree_constraint_m_flatten_p"; "edge_degree_constraint_cost_flatten_p";
    "extrinsic_output_edge_ec_p"; "num_augmentations_p"; "tour_impa_flatten_p"; "cost_impa_p";
    "selected_edges_p"; "selected_edges_size_p"; "no_improvement_sol_count_exceeded_flag_p";
    "no_consecutive_loops_count_exceeded_flag_p"; "sol_oscillation_count_exceeded_flag_p";
    "subtour_paths_flatten_p"; "subtour_paths_size_flatten_p"; "num_added_constraints_p" ];
  f_returned := tsp_returned;
  f_params := [ ("NUM_ITERATIONS", TInt); ("NUM_NODES", TInt); ("NUM_EDGE_VARIABLES", TInt);
                ("AUGMENTATION_FLAG", TBool); ("RESET_FLAG", TBool); ("FILTERING_FLAG", TBool);
                ("ALPHA", TDouble); ("pEDGE_CONNECTIONS_PY", ip); ("pCOST_EDGE_VARIABLE_PY", dp);
                ("pCOST_MATRIX_PY", dp); ("pEdge_ec_to_degree_constraint_m_py", dp);
                ("pEDGE_DEGREE_CONSTRAINT_COST_PY", dp); ("pExtrinsic_output_edge_ec", dp);
                ("THRESHOLD", TDouble); ("pNum_augmentations", ip); ("pTour_impa", ip);
                ("pCost_impa", dp); ("pNo_improv_sol_count_exc_flag", bp);
                ("pNo_cons_loops_count_exc_flag", bp); ("pSelected_edges", ip);
                ("pSelected_edges_size", ip); ("pSol_osc_count_exc_flag", bp);
                ("pSubtour_paths", ip); ("pSubtour_paths_size", ip); ("MAX_COUNT", TInt);
                ("pNum_added_constraints", ip); ("MAX_AUGM_COUNT", TInt) ] |}.

(** WrapperKcMwm: cFunctionAPI.py:64-81, Impa.py:1505-1516, :1523-1554, Wrapper.cpp:30-33. *)
Definition kc_foreign : foreign := {|
  f_argtypes := [ TInt; TInt; TInt; TInt; dp; ip; dp; dp; ip; ip; ip; TInt; dp; dp; TBool; TDouble ];
  f_call := [ Int32 "num_iterations"; Int32 "num_departments"; Int32 "num_teams";
              Int32 "num_projects"; Var "transitional_model_p"; Var "max_state_p";
              Var "reward_team_p"; Var "reward_project_flatten_p";
              Var "teams_weights_per_department_flatten_p"; Var "non_zero_weight_indices_p";
              Var "non_zero_weight_indices_sizes_p"; Var "max_size_nonzero_weights";
              Var "extrinsic_output_team_p"; Var "intrisic_out_mwm_p"; Flag "filtering_flag";
              Float "alpha" ];
  f_unpack := [ "transitional_model_p"; "max_state_p"; "reward_team_p"; "reward_project_flatten_p";
                "teams_weights_per_department_flatten_p"; "extrinsic_output_team_p";
                "intrisic_out_mwm_p"; "non_zero_weight_indices_p";
                "non_zero_weight_indices_sizes_p"; "max_size_nonzero_weights" ];
  f_returned := [ "transitional_model_p"; "max_state_p"; "reward_team_p";
                "reward_project_flatten_p"; "teams_weights_per_department_flatten_p";
                "extrinsic_output_team_p"; "intrisic_out_mwm_p"; "non_zero_weight_indices_p";
                "non_zero_weight_indices_sizes_p"; "max_size_nonzero_weights" ];
  f_params := [ ("NUM_ITERATIONS", TInt); ("NUM_DEPARTMENTS", TInt); ("NUM_TEAMS", TInt);
                ("NUM_PROJECTS", TInt); ("pTransition_model_py", dp); ("pMAX_STATE_PY", ip);
                ("pREWARD_TEAM_PY", dp); ("pREWARD_PROJECT_PY", dp);
                ("pTEAMS_WEIGHTS_PER_DEPARTMENT_PY", ip); ("p_NON_ZERO_WEIGHT_INDICES_PY", ip);
                ("pNON_ZERO_WEIGHT_INDICES_SIZES_PY", ip); ("MAX_SIZE_NON_ZERO_WEIGHTS", TInt);
                ("pExtrinsic_output_team", dp); ("pIntrinsic_out_mwm", dp);
                ("FILTERING_FLAG", TBool); ("ALPHA", TDouble) ] |}.

(** WrapperKsat: cFunctionAPI.py:85-100, Impa.py:2449-2476, :2588-2597, Wrapper.cpp:127-131. *)
Definition ksat_foreign : foreign := {|
  f_argtypes := [ TInt; TInt; TInt; TInt; TDouble; TBool; ip; ip; ip; ip; ip; dp; dp; dp; TInt ];
  f_call := [ Int32 "num_iterations"; Int32 "num_variables"; Int32 "num_constraints";
              Int32 "num_used_variables"; Float "alpha"; Flag "filtering_flag";
              Var "used_variables_flatten_p"; Var "variables_connections_flatten_p";
              Var "variables_connections_sizes_flatten_p"; Var "constraints_connections_flatten_p";
              Var "constraints_connections_type_flatten_p"; Var "incoming_metrics_cost_flatten_p";
              Var "variable_ec_to_ksat_constraint_m_flatten_p";
              Var "extrinsic_output_variable_ec_p"; Int32 "k_variable" ];
  f_unpack := [ "used_variables_flatten_p"; "variables_connections_flatten_p";
                "variables_connections_sizes_flatten_p"; "constraints_connections_flatten_p";
                "constraints_connections_type_flatten_p"; "incoming_metrics_cost_flatten_p";
                "variable_ec_to_ksat_constraint_m_flatten_p"; "extrinsic_output_variable_ec_p" ];
  f_returned := [ "used_variables_flatten_p"; "variables_connections_flatten_p";
                "variables_connections_sizes_flatten_p"; "constraints_connections_flatten_p";
                "constraints_connections_type_flatten_p"; "incoming_metrics_cost_flatten_p";
                "variable_ec_to_ksat_constraint_m_flatten_p"; "extrinsic_output_variable_ec_p" ];
  f_params := [ ("NUM_ITERATIONS", TInt); ("NUM_VARIABLES", TInt); ("NUM_CONSTRAINTS", TInt);
                ("NUM_USED_VARIABLES", TInt); ("ALPHA", TDouble); ("FILTERING_FLAG", TBool);
                ("pUSED_VARIABLES_PY", ip); ("pVARIABLES_CONNECTIONS_PY", ip);
                ("pVARIABLES_CONNECTIONS_SIZES", ip); ("pCONSTRAINTS_CONNECTIONS", ip);
                ("pCONSTRAINTS_CONNECTIONS_TYPE", ip); ("pINCOMING_METRICS_COST", dp);
                ("pVariable_ec_to_ksat_constraint_m_py", dp);
                ("pExtrinsic_output_variable_ec", dp); ("K_VARIABLE", TInt) ] |}.

(** ** Scalar results

    Impa.py:317, :318, :324: [np.array(0)] is a 64-bit integer cell although the pointer made
    from it is an [int *]; graphical_model.hpp:416, :417, :433 store 32 bits through it, and
    Impa.py:421, :423, :388 read the 64-bit cell back.  Bytes, lowest address first. *)
Fixpoint le_bytes (n : nat) (z : Z) : list Z :=
  match n with 0 => [] | S k => (z mod 256)%Z :: le_bytes k (z / 256)%Z end.

Fixpoint le_value (l : list Z) : Z :=
  match l with [] => 0%Z | b :: t => (b + 256 * le_value t)%Z end.

Definition signed (bits : Z) (u : Z) : Z := (if u <? 2 ^ (bits - 1) then u else u - 2 ^ bits)%Z.

Inductive endian := Little | Big.

Definition to_bytes (e : endian) (n : nat) (z : Z) : list Z :=
  match e with Little => le_bytes n z | Big => rev (le_bytes n z) end.

Definition of_bytes (e : endian) (l : list Z) : Z :=
  le_value (match e with Little => l | Big => rev l end).

(** [np.array(z)]; [*p = v] through an [int *]; reading the cell again. *)
Definition int64_cell (e : endian) (z : Z) : list Z := to_bytes e 8 (z mod 2 ^ 64)%Z.
Definition store_int32 (e : endian) (v : Z) (mem : list Z) : list Z :=
  (to_bytes e 4 (v mod 2 ^ 32)%Z ++ skipn 4 mem)%list.
Definition read_int64 (e : endian) (mem : list Z) : Z := signed 64 (of_bytes e mem).

(** One call: the attribute holding [old] before the call is given the value read back. *)
Definition scalar_result (e : endian) (old v : Z) : Z :=
  read_int64 e (store_int32 e v (int64_cell e old)).
