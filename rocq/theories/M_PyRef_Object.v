(** * Model: the pure Python K-SAT solver as an object: instances and decisions.

    test/python_ksat/src/graphical_model.py: [initialize], [create_incoming_metrics_cost],
    [run_impa], [hard_decision_analysis].  Random numbers are arguments; [None] is an exception. *)
From Verif Require Import Num Arr M_Tsp_Run M_Ksat_Py M_Instances M_PyRef_Run.
Local Open Scope nat_scope.

(** python_ksat graphical_model.py:136-158: one clause.  Other than Impa.py:2423-2436 it is kept
    even if an earlier clause has the same variables.  The code writes it to slot [constraint_idx] of a
    list made before; here it is appended (the slots are filled in order). *)
Definition ref_gen_step (nv k : nat) (sol : list bool) (g : gen) (d : draw) : option gen :=
  lits <- draw_clause nv k sol d ;;
  let c := length (g_conx g) in
  vconx <- foldM (fun m v => push m v c) (map fst lits) (g_vconx g) ;;
  vtypes <- foldM (fun m l => push m (fst l) (snd l)) lits (g_vtypes g) ;;
  Some {| g_conx := g_conx g ++ [map fst lits]; g_types := g_types g ++ [map snd lits];
          g_used := g_used g ++ map fst lits; g_vconx := vconx; g_vtypes := vtypes |}.
(** python_ksat graphical_model.py:120-124, 136-161 *)
Definition ref_formula (nv nc k : nat) (sol : list bool) (ord : list nat -> list nat) (draws : list draw)
  : option formula :=
  g <- for_up 0 nc {| g_conx := []; g_types := []; g_used := []; g_vconx := repeat [] nv; g_vtypes := repeat [] nv |}
         (fun g i => d <- get draws i ;; ref_gen_step nv k sol g d) ;;
  Some {| y_nc := nc; y_conx := g_conx g; y_types := g_types g;
          y_used := ord (dedup (g_used g)); y_vconx := g_vconx g; y_vtypes := g_vtypes g |}.
(** python_ksat graphical_model.py:122, 127-133: normal metrics of variance 3 (type 1 of Impa.py) *)
Definition ref_variance : Qc := Q2Qc 3.
Definition ref_metrics (nv : nat) (sol : list bool) (draws : list metric_draw) : option (list num) :=
  for_up 0 (length sol) (repeat n0 nv) (fun m i =>
    t <- get sol i ;; d <- get draws i ;; set m i (one_metric 1 ref_variance (Some t) d)).

(** Fields set by [initialize] *)
Record ref_object := { rf_nv : nat; rf_nc : nat; rf_k : nat; rf_formula : formula; rf_metrics : list num; rf_truth : list bool }.
(** python_ksat graphical_model.py:33-69.  The generator also runs when an instance was loaded. *)
Definition ref_initialize (random_test : bool) (nv nc k : nat) (load : list entry) (ord : list nat -> list nat)
  (x : ksat_draws) : option ref_object :=
  ' (nv, nc, k) <- (if random_test then Some (nv, nc, k)
                    else nv <- as_int load 0 ;; nc <- as_int load 1 ;; k <- as_int load 2 ;; Some (nv, nc, k)) ;;
  metrics <- ref_metrics nv (x_sol x) (x_metrics x) ;;
  f <- ref_formula nv nc k (x_sol x) ord (x_clauses x) ;;
  ' (f, metrics) <-
    (if random_test then Some (f, metrics)
     else
       conx <- as_rows load 3 ;; types <- as_signs load 4 ;; metrics <- as_nums load 5 ;;
       used <- as_indices load 6 ;; vconx <- as_rows load 7 ;; vtypes <- as_signs load 8 ;;
       Some ({| y_nc := nc; y_conx := conx; y_types := types; y_used := used; y_vconx := vconx; y_vtypes := vtypes |},
             metrics)) ;;
  Some {| rf_nv := nv; rf_nc := nc; rf_k := k; rf_formula := f; rf_metrics := metrics; rf_truth := x_sol x |}.

(** python_ksat graphical_model.py:165-226: the run, its decisions and what is reported.  Lines 205-219
    are those of [get_summary] (Impa.py:2601-2613). *)
Definition ref_run (iters : nat) (flag : bool) (alpha thr : num) (r : ref_object)
  : option (list num * list num * summary) :=
  let f := rf_formula r in
  ' (ext, _, hd) <- py_ksat_reference iters flag alpha thr (rf_nv r) (rf_nc r) (y_conx f) (y_types f) (y_used f)
                      (y_vconx f) (rf_metrics r) ;;
  s <- get_summary f hd ;;
  Some (ext, hd, s).
