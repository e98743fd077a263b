(** * Model: whole runs of the pure Python K-SAT and KC-MWM solvers.

    test/python_ksat/src/graphical_model.py and test/python_kc_mwm/src/graphical_model.py.
    [None] is a Python exception. *)
From Verif Require Import Num Arr M_PyRef M_PyRef_Kc M_PyRef_Ksat.
Local Open Scope nat_scope.

(** [a[a > thr] = 0], [a[a <= thr] = 1], both masks from the undecided array *)
Definition mask_above (thr : num) (v old : num) : num := if ngt v thr then n0 else old.
Definition mask_below (thr : num) (v old : num) : num := if nleb v thr then n1 else old.
Definition py_hard (thr : num) (v : num) : num := mask_below thr v (mask_above thr v v).

(** ** K-SAT *)

(** python_ksat graphical_model.py:76-91: initial messages (the assignment is written twice) *)
Definition py_ksat_initial (nv nc : nat) (conns : list (list nat)) (cost : list num)
  : option (list (list num)) :=
  for_up 0 (length conns) (np_zeros nc nv) (fun m i =>
    conn <- get conns i ;;
    foldM (fun m v =>
      c <- get cost v ;;
      m <- set2 m i v c ;;
      set2 m i v c) conn m).

(** [variable_ec_to_ksat_constraint_m], [ksat_constraint_to_eq_constraint_m_old] (absent at
    first), [extrinsic_output_variable_ec] *)
Record pk_state := {
  pk_var : list (list num);
  pk_old : option (list (list num));
  pk_extr : list num }.

(** python_ksat graphical_model.py:171-181: one iteration ([..._old] of the output is not used) *)
Definition py_ksat_step (flag : bool) (alpha : num) (nv nc : nat) (conns : list (list nat))
  (types : list (list Z)) (used : list nat) (vconns : list (list nat)) (cost : list num)
  (st : pk_state) (iter : nat) : option pk_state :=
  dummy <- py_ksat_update nv nc (pk_var st) conns types ;;
  ' (m, old) <- py_filtering flag alpha iter dummy (pk_old st) ;;
  var <- py_variable_update nv nc m used cost vconns ;;
  extr <- py_extrinsic_variable nv m ;;
  Some {| pk_var := var; pk_old := old; pk_extr := extr |}.

(** python_ksat graphical_model.py:165-203: [run_impa] up to the hard decision; extrinsic output,
    intrinsic output, hard decision *)
Definition py_ksat_reference (iters : nat) (flag : bool) (alpha thr : num) (nv nc : nat)
  (conns : list (list nat)) (types : list (list Z)) (used : list nat) (vconns : list (list nat))
  (cost : list num) : option (list num * list num * list num) :=
  m <- py_ksat_initial nv nc conns cost ;;
  st <- for_up 0 iters {| pk_var := m; pk_old := None; pk_extr := repeat n0 nv |}
          (py_ksat_step flag alpha nv nc conns types used vconns cost) ;;
  uc <- used_costs nv used cost ;;
  intr <- np_add (pk_extr st) uc ;;
  Some (pk_extr st, intr, map (py_hard thr) intr).

(** ** KC-MWM *)

(** Arrays of the object that survive an iteration; [kp_extr_team] is absent before the first *)
Record kp_state := {
  kp_t2k : list (list num);
  kp_dummy : list (list num);
  kp_old : option (list (list num));
  kp_eq2oric : list (list num);
  kp_oric2team : list num;
  kp_intrinsic : list (list num);
  kp_extr_team : option (list num) }.

(** python_kc_mwm graphical_model.py:106-113: initial messages *)
Definition py_kc_initial (T D : nat) (weights : list (list nat)) (reward : list num)
  : option (list (list num)) :=
  for_up 0 D (np_zeros D T) (fun m i =>
    for_up 0 T m (fun m j =>
      w <- get2 weights i j ;;
      if w =? 0 then Some m else r <- get reward j ;; set2 m i j r)).

(** python_kc_mwm graphical_model.py:370-383: the departments of one iteration *)
Definition py_kc_departments (T D : nat) (caps : list nat) (weights : list (list nat))
  (t2k dummy : list (list num)) : option (list (list num)) :=
  for_up 0 D dummy (fun dummy d =>
    cap <- get caps d ;;
    ms <- get t2k d ;;
    ws <- get weights d ;;
    row <- py_department T cap ms ws ;;
    set dummy d row).

(** python_kc_mwm graphical_model.py:369-402: one iteration *)
Definition py_kc_step (flag : bool) (alpha : num) (T D P : nat) (caps : list nat)
  (weights : list (list nat)) (reward : list num) (reward_project : list (list num))
  (st : kp_state) (iter : nat) : option kp_state :=
  dummy <- py_kc_departments T D caps weights (kp_t2k st) (kp_dummy st) ;;
  ' (extr, old) <- py_filtering flag alpha iter dummy (kp_old st) ;;
  team2oric <- py_team_to_oric extr reward ;;
  ' (oric2eq, eq2project) <- py_oric_to_project P T (kp_eq2oric st) team2oric reward_project ;;
  project2eq <- py_project_update (negb (P =? T)) eq2project ;;
  eq2oric <- py_project_to_oric project2eq reward_project ;;
  oric2team <- py_oric_to_team eq2oric ;;
  intrinsic <- py_intrinsic_mwm oric2eq project2eq reward_project ;;
  t2k <- py_team_to_department D T weights reward extr oric2team ;;
  extr_team <- py_extrinsic_team extr oric2team ;;
  Some {| kp_t2k := t2k; kp_dummy := dummy; kp_old := old; kp_eq2oric := eq2oric;
          kp_oric2team := oric2team; kp_intrinsic := intrinsic; kp_extr_team := Some extr_team |}.

(** python_kc_mwm graphical_model.py:98-113, knapsack.py:18-19: state before the first iteration *)
Definition kp_init (T D P : nat) (t2k : list (list num)) : kp_state :=
  {| kp_t2k := t2k; kp_dummy := np_zeros D T; kp_old := None; kp_eq2oric := np_zeros P T;
     kp_oric2team := repeat n0 T; kp_intrinsic := np_zeros P T; kp_extr_team := None |}.
Definition py_kc_iterate (iters : nat) (flag : bool) (alpha : num) (T D P : nat) (caps : list nat)
  (weights : list (list nat)) (reward : list num) (reward_project : list (list num))
  : option kp_state :=
  t2k <- py_kc_initial T D weights reward ;;
  for_up 0 iters (kp_init T D P t2k) (py_kc_step flag alpha T D P caps weights reward reward_project).

(** python_kc_mwm graphical_model.py:368-405 [iterate]: extrinsic output of the teams (attribute
    error without iterations), intrinsic output of the teams, intrinsic output of the pairs *)
Definition py_kc_reference (iters : nat) (flag : bool) (alpha : num) (T D P : nat) (caps : list nat)
  (weights : list (list nat)) (reward : list num) (reward_project : list (list num))
  : option (list num * list num * list (list num)) :=
  st <- py_kc_iterate iters flag alpha T D P caps weights reward reward_project ;;
  extr <- kp_extr_team st ;;
  intr <- np_add extr reward ;;
  Some (extr, intr, kp_intrinsic st).
