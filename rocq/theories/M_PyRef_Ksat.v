(** * Model: the pure Python implementation of the K-SAT message updates.

    test/python_ksat/src/{update_ksat_constraint,update_equality_constraint,input_output}.py.
    [None] is a Python exception. *)
From Verif Require Import Num Arr M_PyRef.
Local Open Scope nat_scope.

(** update_ksat_constraint.py:35-36: members of the clause of type [ty] other than [variable] *)
Definition others_of_type (conx : list nat) (tys : list Z) (ty : Z) (variable : nat)
  : option (list nat) :=
  foldM (fun acc i =>
    node <- get conx i ;;
    t <- get tys i ;;
    Some (if (t =? ty)%Z && negb (node =? variable) then acc ++ [node] else acc))
    (seq 0 (length conx)) [].

(** update_ksat_constraint.py:37-44 and :45-52: the best message among the solid (dashed) others.
    [positive]: the variable itself has type 1; [flip]: the sign is changed in the [np.max] case
    (solid) or in the [np.min] case (dashed).  [np.where] evaluates both of its arguments. *)
Definition best_solid (positive : bool) (vals : list num) : option num :=
  match vals with
  | [] => Some (if positive then NInf else PInf)
  | _ => a <- np_max (map nopp vals) ;; b <- np_min vals ;; Some (if positive then a else b)
  end.
Definition best_dashed (positive : bool) (vals : list num) : option num :=
  match vals with
  | [] => Some (if positive then NInf else PInf)
  | _ => a <- np_max vals ;; b <- np_min (map nopp vals) ;; Some (if positive then a else b)
  end.

(** update_ksat_constraint.py:27-59; [min] and [max] in lines 55 and 57 are the builtins *)
Definition py_ksat_update (num_variables num_constraints : nat) (msgs : list (list num))
  (conns : list (list nat)) (types : list (list Z)) : option (list (list num)) :=
  for_up 0 num_constraints (np_zeros num_constraints num_variables) (fun out c =>
    conx <- get conns c ;;
    tys <- get types c ;;
    for_up 0 (length conx) out (fun out i =>
      v <- get conx i ;;
      solid <- others_of_type conx tys 1%Z v ;;
      dashed <- others_of_type conx tys (-1)%Z v ;;
      t <- get tys i ;;
      let positive := (t =? 1)%Z in
      sv <- mapM (fun n => get2 msgs c n) solid ;;
      s <- best_solid positive sv ;;
      dv <- mapM (fun n => get2 msgs c n) dashed ;;
      d <- best_dashed positive dv ;;
      set2 out c v (if positive then nmin n0 (nmax s d) else nmax n0 (nmin s d)))).

(** [np.sum(m, axis=0)] of an [nc] by [nv] array *)
Definition sum_axis0 (nv : nat) (m : list (list num)) : option (list num) :=
  mapM (fun j => c <- column m j ;; Some (np_sum c)) (seq 0 nv).

(** update_equality_constraint.py:36-37, graphical_model.py:178-180 *)
Definition used_costs (num_variables : nat) (used : list nat) (cost : list num) : option (list num) :=
  c <- np_take cost used ;; np_put (repeat n0 num_variables) used c.

(** update_equality_constraint.py:31-46 *)
Definition py_variable_update (num_variables num_constraints : nat) (msgs : list (list num))
  (used : list nat) (cost : list num) (vconns : list (list nat)) : option (list (list num)) :=
  uc <- used_costs num_variables used cost ;;
  s <- sum_axis0 num_variables msgs ;;
  sums <- np_add s uc ;;
  foldM (fun out v =>
    cs <- get vconns v ;;
    foldM (fun out c =>
      x <- get sums v ;;
      m <- get2 msgs c v ;;
      set2 out c v (nsub x m)) cs out) used (np_zeros num_constraints num_variables).

(** input_output.py:20-21 *)
Definition py_extrinsic_variable (num_variables : nat) (msgs : list (list num)) : option (list num) :=
  sum_axis0 num_variables msgs.
