(** * Python front end of the TSP solver: arrays handed to and taken from C++.
    src/impa/Impa.py, class GraphicalModelTsp; src/impa/Wrapper.cpp, WrapperTsp. *)
From Verif Require Import Num Arr M_InOut M_Runs M_Tsp_Loops M_Tsp_Run.
Local Open Scope nat_scope.

(** Impa.py:203 [np.transpose(np.nonzero(matrix))]: positions of non-zero entries by rows.
    A NaN counts as non-zero. *)
Definition py_edges (cm : list (list num)) : list (nat * nat) :=
  concat (map (fun i => let row := nth i cm [] in
            map (pair i) (filter (fun j => negb (neqb (nth j row n0) n0)) (seq 0 (length row))))
          (seq 0 (length cm))).
(** Impa.py:153 *)
Definition py_num_edges (n : nat) : nat := n * n - n.
(** Impa.py:157-171: costs of the edges and initial messages, [None] on IndexError *)
Definition py_tsp_arrays (n : nat) (cm : list (list num)) (edges : list (nat * nat))
  : option (list num * list (list num)) :=
  let e := py_num_edges n in
  for_up 0 (length edges) (repeat n0 e, zeros e n) (fun st i =>
    let '(cost_edge, m) := st in
    ' (u, v) <- get edges i ;;
    c <- get2 cm u v ;;
    cost_edge <- set cost_edge i c ;;
    m <- set2 m i u c ;;
    m <- set2 m i v c ;;
    Some (cost_edge, m)).

(** What the caller of the C++ function sees *)
Inductive call_result := Done (r : tsp_result) | Killed | Unfinished.

(** Constructor call, Wrapper.cpp:90 *)
Definition call_params (iters n e : nat) (aug reset filt : bool) (alpha thr : num) (max_count : Z)
  (inp : tsp_inputs) (ord : list nat -> list nat) : tsp_params :=
  {| p_n := n; p_e := e; p_iters := iters; p_aug := aug; p_reset := reset; p_filt := filt;
     p_alpha := alpha; p_thr := thr; p_max_count := max_count; p_in := inp; p_ord := ord |}.
(** Wrapper.cpp:82-107 [WrapperTsp]; the loop in [perform_augmentation] runs at most [fuel] rounds *)
Definition wrapper_tsp (fuel iters n e : nat) (aug reset filt : bool) (alpha : num)
  (edges : list nat) (cost_edge cm e2d dc bextr : list num) (thr : num)
  (btour bedges bpaths bsizes : list nat) (max_count max_augm : Z) (ord : list nat -> list nat)
  : option call_result :=
  inp <- tsp_process_inputs n e edges cost_edge cm e2d dc ;;
  let p := call_params iters n e aug reset filt alpha thr max_count inp ord in
  o <- tsp_solve fuel p max_augm ;;
  match o with
  | Returned st =>
      r <- process_outputs p st bextr btour bedges bpaths bsizes ;; Some (Done r)
  | Exited => Some Killed
  | Running _ => Some Unfinished
  end.

(** Options of a Python solver object: Impa.py:84-105 *)
Record tsp_options := {
  q_iters : nat; q_aug : bool; q_reset : bool; q_filt : bool; q_alpha : num; q_thr : num;
  q_max_count : Z; q_max_augm : Z }.

(** Impa.py:107-177 [initialize] with a given cost matrix, 206-253 [run_impa] and 278-330
    [process_inputs_ctypes]: buffers have [n + 1] (136), [comb(n, 2)] (138), [n ** 2] (139) and
    [n ** 2] (321) integers and [num_edge_variables] numbers (303).  The same array is used for
    initial messages and degree costs (174-176); both are copied by [flatten]. *)
Definition py_run_tsp (fuel : nat) (o : tsp_options) (n : nat) (cm : list (list num))
  (ord : list nat -> list nat) : option call_result :=
  let E := py_edges cm in
  let e := py_num_edges n in
  ' (cost_edge, m) <- py_tsp_arrays n cm E ;;
  wrapper_tsp fuel (q_iters o) n e (q_aug o) (q_reset o) (q_filt o) (q_alpha o)
    (flat_edges E) cost_edge (concat cm) (concat m) (concat m) (repeat n0 e) (q_thr o)
    (repeat 0 (n + 1)) (repeat 0 (n * (n - 1) / 2)) (repeat 0 (n * n)) (repeat 0 (n * n))
    (q_max_count o) (q_max_augm o) ord.

(** Impa.py:430-431: intrinsic values as recomputed in Python *)
Definition py_intrinsic (r : tsp_result) (cost_edge : list num) : list num :=
  zip_with nadd (o_extr r) cost_edge.
