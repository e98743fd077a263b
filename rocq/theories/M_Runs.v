(** * Whole runs of the KC-MWM and K-SAT solvers (C++). *)
From Verif Require Import Num Arr M_Kc_Trellis M_Knapsack M_Ksat M_Equality M_Filter M_InOut.
Local Open Scope nat_scope.

Definition zeros (n k : nat) : list (list num) := repeat (repeat n0 k) n.

(** ** KC-MWM *)

(** The arrays of [GraphicalModelKcMwm] that survive an iteration
    (graphical_model.hpp:21-46; [kc_extr_old] is knapsack.hpp:22 [extrinsicOutputDepartmentOld_],
    [kc_t2k] is [modelInputs_.Team2KnapsackM], [kc_intrinsic] is [outputs.IntrinsicOutMwm]). *)
Record kc_state := {
  kc_t2k : list (list num);
  kc_dummy : list (list num);
  kc_extr_old : list (list num);
  kc_extr : list (list num);
  kc_team2oric : list num;
  kc_oric2team : list num;
  kc_eq2oric : list (list num);
  kc_oric2eq : list (list num);
  kc_eq2project : list (list num);
  kc_project2eq : list (list num);
  kc_intrinsic : list num }.

(** graphical_model.hpp:77-105 (constructor), knapsack.hpp:47-55, input_output.hpp:119-128 *)
Definition kc_init (T D P : nat) (t2k : list (list num)) : kc_state :=
  {| kc_t2k := t2k; kc_dummy := zeros D T; kc_extr_old := zeros D T; kc_extr := zeros D T;
     kc_team2oric := repeat n0 T; kc_oric2team := repeat n0 T;
     kc_eq2oric := zeros P T; kc_oric2eq := zeros P T;
     kc_eq2project := zeros P T; kc_project2eq := zeros P T;
     kc_intrinsic := repeat n0 (P * T) |}.

(** graphical_model.hpp:144-160: one department.  [sizes] is the array passed by Python. *)
Definition kc_department (flag : bool) (alpha : num) (T : nat) (inp : kc_inputs) (sizes : list nat)
  (t2k : list (list num)) (iter : nat)
  (st : list (list num) * list (list num) * list (list num)) (d : nat)
  : option (list (list num) * list (list num) * list (list num)) :=
  let '(dummy, old, extr) := st in
  cap <- get (kc_max_state inp) d ;;
  nz <- get (kc_nonzero inp) d ;;
  size <- get sizes d ;;
  ws <- get (kc_weights inp) d ;;
  ms <- get t2k d ;;
  row <- get dummy d ;;
  row <- department_update T cap nz size ws ms row ;;
  dummy <- set dummy d row ;;
  ' (extr, old) <- filter_at flag alpha iter d dummy old extr ;;
  Some (dummy, old, extr).

(** graphical_model.hpp:143-169: one iteration *)
Definition kc_step (flag : bool) (alpha : num) (T D P : nat) (inp : kc_inputs) (sizes : list nat)
  (st : kc_state) (iter : nat) : option kc_state :=
  ' (dummy, old, extr) <- for_up 0 D (kc_dummy st, kc_extr_old st, kc_extr st)
      (kc_department flag alpha T inp sizes (kc_t2k st) iter) ;;
  team2oric <- team_to_oric_update T extr (kc_team2oric st) (kc_reward_team inp) ;;
  ' (oric2eq, eq2project) <- oric_to_project_update P T (kc_eq2oric st) team2oric
      (kc_oric2eq st) (kc_eq2project st) (kc_reward_project inp) ;;
  project2eq <- project_update T eq2project (kc_project2eq st) ;;
  eq2oric <- project_to_oric_update project2eq (kc_eq2oric st) (kc_reward_project inp) ;;
  oric2team <- oric_to_team_update eq2oric (kc_oric2team st) ;;
  intrinsic <- intrinsic_out_mwm T oric2eq project2eq (kc_reward_project inp) (kc_intrinsic st) ;;
  t2k <- team_to_knapsack D T (kc_nonzero inp) (kc_t2k st) (kc_reward_team inp) extr oric2team ;;
  Some {| kc_t2k := t2k; kc_dummy := dummy; kc_extr_old := old; kc_extr := extr;
          kc_team2oric := team2oric; kc_oric2team := oric2team; kc_eq2oric := eq2oric;
          kc_oric2eq := oric2eq; kc_eq2project := eq2project; kc_project2eq := project2eq;
          kc_intrinsic := intrinsic |}.

(** graphical_model.hpp:142-171 [GraphicalModelKcMwm::iterate]; the result is the final state and
    [outputs.ExtrinsicOutputTeam] *)
Definition kc_iterate (flag : bool) (alpha : num) (T D P iters : nat) (inp : kc_inputs)
  (sizes : list nat) : option (kc_state * list num) :=
  st <- for_up 0 iters (kc_init T D P (kc_team2knapsack inp)) (kc_step flag alpha T D P inp sizes) ;;
  ext <- extrinsic_output_team (kc_extr st) (kc_oric2team st) (repeat n0 T) ;;
  Some (st, ext).

(** Wrapper.cpp:30-49 [WrapperKcMwm], called as in Impa.py:1518-1565 and :1430-1516 with the
    flattened arrays; the result is (extrinsic output of teams, intrinsic output of pairs). *)
Definition wrapper_kc_mwm (iters D T P : nat) (transition : list num) (max_state : list nat)
  (reward_team reward_project : list num) (weights nonzero sizes : list nat) (maxsz : nat)
  (flag : bool) (alpha : num) : option (list num * list num) :=
  inp <- kc_process_inputs T D P maxsz reward_team transition weights sizes nonzero reward_project
           max_state ;;
  ' (st, ext) <- kc_iterate flag alpha T D P iters inp sizes ;;
  Some (ext, kc_intrinsic st).

(** ** K-SAT *)

(** The arrays of [GraphicalModelKsat] (graphical_model.hpp:860-882; [kst_old] is
    update_ksat_constraint.hpp:21 [ksatConstraint2EqConstraintOld]). *)
Record ksat_state := {
  kst_var : list (list num);
  kst_dummy : list (list num);
  kst_old : list (list num);
  kst_msg : list (list num) }.
Definition ksat_init (nv nc : nat) (m : list (list num)) : ksat_state :=
  {| kst_var := m; kst_dummy := zeros nc nv; kst_old := zeros nc nv; kst_msg := zeros nc nv |}.

(** graphical_model.hpp:941-950 *)
Definition ksat_step (flag : bool) (alpha : num) (nv nc k : nat) (inp : ksat_inputs)
  (st : ksat_state) (iter : nat) : option ksat_state :=
  dummy <- ksat_update nc k (kst_var st) (kst_dummy st) (ks_conx inp) (ks_type inp) ;;
  ' (msg, old) <- process_filtering flag alpha iter nc dummy (kst_old st) (kst_msg st) ;;
  var <- variable_update nv msg (kst_var st) (ks_used inp) (ks_metrics inp) (ks_varconx inp) ;;
  Some {| kst_var := var; kst_dummy := dummy; kst_old := old; kst_msg := msg |}.

(** graphical_model.hpp:940-953 [GraphicalModelKsat::iterate] *)
Definition ksat_iterate (flag : bool) (alpha : num) (nv nc k iters : nat) (inp : ksat_inputs)
  : option (ksat_state * list num) :=
  st <- for_up 0 iters (ksat_init nv nc (ks_var2clause inp)) (ksat_step flag alpha nv nc k inp) ;;
  ext <- ksat_update_extrinsic nv nc (kst_msg st) (repeat n0 nv) ;;
  Some (st, ext).

(** Wrapper.cpp:127-145 [WrapperKsat] *)
Definition wrapper_ksat (iters nv nc nused : nat) (alpha : num) (flag : bool)
  (used varconx sizes conx : list nat) (types : list Z) (metrics var2clause : list num) (k : nat)
  : option (list num) :=
  inp <- ksat_process_inputs nv nc k nused used varconx sizes conx types metrics var2clause ;;
  ' (_, ext) <- ksat_iterate flag alpha nv nc k iters inp ;;
  Some ext.
