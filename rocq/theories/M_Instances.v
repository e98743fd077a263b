(** * Problem instances: drawn by the solver objects, or drawn by the generators, stored in a file and
    read back.
    src/impa/Impa.py, [initialize] and [create_cost_matrix] of GraphicalModelTsp, [initialize] and
    [generate_incoming_metrics] of GraphicalModelKsat; test/python_tsp/src/generate_inputs.py;
    test/python_ksat/src/generate_inputs.py.

    Random numbers are arguments.  Pickling is not modelled: what is read is the list that was stored. *)
From Verif Require Import Num Arr M_InOut M_Runs M_Tsp_Loops M_Tsp_Run M_Tsp_Py M_Ksat_Py.
Local Open Scope nat_scope.

(** Entries of a stored list *)
Inductive entry :=
  | EInt (n : nat) | EFlag (b : bool) | EMatrix (m : list (list num)) | EPairs (l : list (nat * nat))
  | ERows (m : list (list nat)) | ESigns (m : list (list Z)) | ENums (l : list num) | EIndices (l : list nat)
  | EAssignment (l : list bool).
(** [input_load[i]]; [None] is an IndexError or a value of another kind *)
Definition as_int (l : list entry) (i : nat) : option nat := match get l i with Some (EInt n) => Some n | _ => None end.
Definition as_flag (l : list entry) (i : nat) : option bool := match get l i with Some (EFlag b) => Some b | _ => None end.
Definition as_matrix (l : list entry) (i : nat) := match get l i with Some (EMatrix m) => Some m | _ => None end.
Definition as_pairs (l : list entry) (i : nat) := match get l i with Some (EPairs m) => Some m | _ => None end.
Definition as_rows (l : list entry) (i : nat) := match get l i with Some (ERows m) => Some m | _ => None end.
Definition as_signs (l : list entry) (i : nat) := match get l i with Some (ESigns m) => Some m | _ => None end.
Definition as_nums (l : list entry) (i : nat) := match get l i with Some (ENums m) => Some m | _ => None end.
Definition as_indices (l : list entry) (i : nat) := match get l i with Some (EIndices m) => Some m | _ => None end.
Definition as_assignment (l : list entry) (i : nat) := match get l i with Some (EAssignment m) => Some m | _ => None end.

(** ** Travelling salesperson *)

(** numpy functions on square matrices *)
Definition table {A} (n : nat) (f : nat -> nat -> A) : list (list A) :=
  map (fun i => map (f i) (seq 0 n)) (seq 0 n).
Definition entry_at (m : list (list num)) (i j : nat) : num := nth j (nth i m []) n0.
(** [np.triu(m, k)]: zero below the k-th diagonal *)
Definition triu (k : nat) (m : list (list num)) : list (list num) :=
  table (length m) (fun i j => if i + k <=? j then entry_at m i j else n0).
Definition transposed (m : list (list num)) : list (list num) :=
  table (length m) (fun i j => entry_at m j i).
Definition fill_diagonal (m : list (list num)) (x : num) : list (list num) :=
  table (length m) (fun i j => if i =? j then x else entry_at m i j).
(** Impa.py:178-204 [create_cost_matrix], with the result of [np.random.uniform] given; also
    test/python_tsp/src/generate_inputs.py:29-56 *)
Definition create_cost_matrix (symmetric : bool) (upper : list (list num)) : list (list num) * list (nat * nat) :=
  let matrix :=
    if symmetric then fill_diagonal (zip_with (zip_with nadd) (triu 0 upper) (transposed (triu 1 upper))) n0
    else fill_diagonal upper n0 in
  (matrix, py_edges matrix).
(** generate_inputs.py:58-63: the stored list *)
Definition tsp_file (n : nat) (symmetric : bool) (upper : list (list num)) : list entry :=
  let '(matrix, edges) := create_cost_matrix symmetric upper in
  [EInt n; EFlag symmetric; EMatrix matrix; EPairs edges].

(** Fields set by [initialize] *)
Record tsp_object := {
  w_nodes : nat; w_symmetric : bool; w_matrix : list (list num); w_edges : list (nat * nat);
  w_num_edges : nat; w_cost_edge : list num; w_messages : list (list num) }.
(** Impa.py:107-176; [nodes] and [symmetric] are the options of the object, [upper n] the draws for
    [n] nodes (made in both modes, 134; in file mode 142-146 replace the result) *)
Definition initialize_tsp (random_test : bool) (nodes : nat) (symmetric : bool) (load : list entry)
  (upper : nat -> list (list num)) : option tsp_object :=
  ' (nodes, symmetric) <-
    (if random_test then Some (nodes, symmetric)
     else n <- as_int load 0 ;; s <- as_flag load 1 ;; Some (n, s)) ;;
  let drawn := create_cost_matrix symmetric (upper nodes) in
  ' (matrix, edges) <-
    (if random_test then Some drawn
     else m <- as_matrix load 2 ;; e <- as_pairs load 3 ;; Some (m, e)) ;;
  ' (cost_edge, messages) <- py_tsp_arrays nodes matrix edges ;;
  Some {| w_nodes := nodes; w_symmetric := symmetric; w_matrix := matrix; w_edges := edges;
          w_num_edges := py_num_edges nodes; w_cost_edge := cost_edge; w_messages := messages |}.
(** Impa.py:206-253 [run_impa], 278-330 [process_inputs_ctypes]: the library call made by an object *)
Definition run_tsp_object (fuel : nat) (o : tsp_options) (w : tsp_object) (ord : list nat -> list nat)
  : option call_result :=
  let n := w_nodes w in
  wrapper_tsp fuel (q_iters o) n (w_num_edges w) (q_aug o) (q_reset o) (q_filt o) (q_alpha o)
    (flat_edges (w_edges w)) (w_cost_edge w) (concat (w_matrix w)) (concat (w_messages w)) (concat (w_messages w))
    (repeat n0 (w_num_edges w)) (q_thr o)
    (repeat 0 (n + 1)) (repeat 0 (n * (n - 1) / 2)) (repeat 0 (n * n)) (repeat 0 (n * n))
    (q_max_count o) (q_max_augm o) ord.

(** ** K-SAT *)

(** Draws for the metric of one variable: the sign (used by type 0 only) and the deviation from the
    mean (the code draws from a normal distribution with variance [var]) *)
Record metric_draw := { e_sign : bool; e_dev : Qc }.
Definition half (x : Qc) : Qc := (x / (1 + 1))%Qc.
(** Impa.py:2366-2375, 2381-2386, one variable; [truth] is absent when no assignment is known; an
    unknown type leaves the zero in place *)
Definition one_metric (type : nat) (var : Qc) (truth : option bool) (d : metric_draw) : num :=
  let normal (mean : Qc) := nadd (Fin mean) (Fin (e_dev d)) in
  match type, truth with
  | 1, Some t => normal (if t then - half var else half var)%Qc
  | 0, _ => normal ((if e_sign d then 1%Qc else (- (1))%Qc) * half var)%Qc
  | 2, _ => normal 0%Qc
  | _, _ => n0
  end.
(** Impa.py:2361-2387 [generate_incoming_metrics]; [None] is IndexError (2369) or ValueError (2379).
    Also test/python_ksat/src/generate_inputs.py:15, 20-33, which has no special case for an empty
    assignment; it is only called with an assignment to all variables. *)
Definition generate_metrics (nv type : nat) (var : Qc) (sol : list bool) (draws : list metric_draw)
  : option (list num) :=
  let zero := repeat n0 nv in
  match sol with
  | [] =>
      if type =? 1 then None
      else for_up 0 nv zero (fun m i => d <- get draws i ;; set m i (one_metric type var None d))
  | _ =>
      for_up 0 (length sol) zero (fun m i =>
        t <- get sol i ;; d <- get draws i ;; set m i (one_metric type var (Some t) d))
  end.

(** What [create_model_structure] (Impa.py:2389-2441) and the generator of test inputs
    (generate_inputs.py:12-77) draw *)
Record ksat_draws := {
  x_sol : list bool; x_metrics : list metric_draw; x_clauses : list draw }.
(** Impa.py:2389-2441: the assignment is drawn first, then the metrics, then the clauses *)
Definition create_model (nv k type : nat) (var : Qc) (ord : list nat -> list nat) (x : ksat_draws)
  : option (formula * list num) :=
  metrics <- generate_metrics nv type var (x_sol x) (x_metrics x) ;;
  f <- create_formula nv k (x_sol x) ord (x_clauses x) ;;
  Some (f, metrics).
(** generate_inputs.py:104-118: the stored list *)
Definition ksat_file (nv k type : nat) (var : Qc) (ord : list nat -> list nat) (x : ksat_draws)
  : option (list entry) :=
  ' (f, metrics) <- create_model nv k type var ord x ;;
  Some [EInt nv; EInt (length (y_conx f)); EInt k; ERows (y_conx f); ESigns (y_types f); ENums metrics;
        EIndices (y_used f); ERows (y_vconx f); ESigns (y_vtypes f); EInt type; EAssignment (x_sol x)].

(** Options of the object that [initialize] reads: Impa.py:2238-2265.  The number of clauses is the
    number of draws. *)
Record ksat_opts := { z_nv : nat; z_k : nat; z_type : nat; z_var : Qc; z_overwrite : bool }.
(** Fields set by [initialize] *)
Record ksat_object := {
  v_nv : nat; v_k : nat; v_type : nat; v_sol : list bool; v_formula : formula; v_metrics : list num;
  v_messages : list (list num); v_nused : nat; v_sizes : list nat }.
(** Impa.py:2267-2359; [fresh] are the draws used to overwrite the metrics of a file (2327-2329) *)
Definition initialize_ksat (random_test : bool) (z : ksat_opts) (load : list entry) (ord : list nat -> list nat)
  (x : ksat_draws) (fresh : list metric_draw) : option ksat_object :=
  ' (nv, k, type, sol, f, metrics) <-
    (if random_test then
       ' (f, metrics) <- create_model (z_nv z) (z_k z) (z_type z) (z_var z) ord x ;;
       Some (z_nv z, z_k z, z_type z, x_sol x, f, metrics)
     else
       nv <- as_int load 0 ;; nc <- as_int load 1 ;; k <- as_int load 2 ;;
       stored <- as_int load 9 ;; sol <- as_assignment load 10 ;;
       let type := if z_overwrite z then z_type z else stored in
       conx <- as_rows load 3 ;; types <- as_signs load 4 ;; metrics <- as_nums load 5 ;;
       used <- as_indices load 6 ;; vconx <- as_rows load 7 ;; vtypes <- as_signs load 8 ;;
       metrics <- (if z_overwrite z then generate_metrics nv type (z_var z) sol fresh else Some metrics) ;;
       Some (nv, k, type, sol,
             {| y_nc := nc; y_conx := conx; y_types := types; y_used := used; y_vconx := vconx; y_vtypes := vtypes |},
             metrics)) ;;
  messages <- initial_messages nv f metrics ;;
  Some {| v_nv := nv; v_k := k; v_type := type; v_sol := sol; v_formula := f; v_metrics := metrics;
          v_messages := messages; v_nused := length (y_used f); v_sizes := map (@length nat) (y_vconx f) |}.
(** Impa.py:2443-2505 [run_impa]: the library call, the decisions and their repair *)
Definition run_ksat_object (iters : nat) (flag : bool) (alpha thr : num) (post_process : bool) (pp : nat)
  (ord2 ord3 : list nat -> list nat) (v : ksat_object) : option (formula * list num * ks_obj) :=
  let f := v_formula v in
  ext <- wrapper_ksat iters (v_nv v) (y_nc f) (v_nused v) alpha flag (y_used f) (concat (y_vconx f)) (v_sizes v)
           (concat (y_conx f)) (concat (y_types f)) (v_metrics v) (concat (v_messages v)) (v_k v) ;;
  o <- py_ksat_finish f ord2 ord3 thr pp post_process (v_metrics v) ext ;;
  Some (f, ext, o).
