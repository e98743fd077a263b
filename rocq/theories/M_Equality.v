(** * Model: equality-constraint message updates of KC-MWM and TSP (C++).

    include/impalib/update_equality_constraint.hpp. *)
From Verif Require Import Num Arr.
Local Open Scope nat_scope.

(** [std::transform(a.begin(), a.end(), b.begin(), out.begin(), std::plus)] *)
Definition plus_into (a b out : list num) : option (list num) := transform2 nadd a b out.

(** update_equality_constraint.hpp:74-88 *)
Definition team_to_oric_update (num_teams : nat) (extrinsic_dept : list (list num))
  (team2oric reward_team : list num) : option (list num) :=
  inter <- for_up 0 (length extrinsic_dept) (repeat n0 num_teams) (fun inter d =>
    row <- get extrinsic_dept d ;; plus_into row inter inter) ;;
  plus_into inter reward_team team2oric.

(** update_equality_constraint.hpp:98-108 *)
Definition project_to_oric_update (project2eq eq2oric reward_project : list (list num))
  : option (list (list num)) :=
  for_up 0 (length project2eq) eq2oric (fun eq2oric p =>
    a <- get project2eq p ;;
    r <- get reward_project p ;;
    o <- get eq2oric p ;;
    o' <- plus_into a r o ;;
    set eq2oric p o').

(** update_equality_constraint.hpp:266-279.  An edge is a pair of nodes (simplification: the
    rows of [rEdgeConnections] have exactly two entries). *)
Definition flip_matrix (m : list (list num)) (edges : list (nat * nat)) (flipped : list (list num))
  : option (list (list num)) :=
  for_up 0 (length edges) flipped (fun f l =>
    ' (row, col) <- get edges l ;;
    a <- get2 m l col ;;
    f <- set2 f l row a ;;
    b <- get2 m l row ;;
    set2 f l col b).

(** update_equality_constraint.hpp:120-136 *)
Definition edge_to_degree_relaxed (num_edges : nat) (edges : list (nat * nat))
  (cost degree2eq out : list (list num)) : option (list (list num)) :=
  flipped <- flip_matrix degree2eq edges degree2eq ;;
  for_up 0 num_edges out (fun out e =>
    f <- get flipped e ;;
    c <- get cost e ;;
    o <- get out e ;;
    o' <- plus_into f c o ;;
    set out e o').

(** update_equality_constraint.hpp:182-188 and :235-240: sum of the subtour rows.  The first
    range is the accumulator. *)
Definition sum_rows (num_edges : nat) (rows : list (list num)) : option (list num) :=
  foldM (fun acc row => plus_into acc row acc) rows (repeat n0 num_edges).

(** update_equality_constraint.hpp:163-169 and :190-196 *)
Definition combined_degree (num_edges : nat) (edges : list (nat * nat)) (degree2eq : list (list num))
  : option (list num) :=
  for_up 0 num_edges (repeat n0 num_edges) (fun comb e =>
    ' (u, v) <- get edges e ;;
    a <- get2 degree2eq e u ;;
    b <- get2 degree2eq e v ;;
    set comb e (nadd a b)).

(** update_equality_constraint.hpp:151-216 *)
Definition edge_to_subtour (num_edges : nat) (deltas : list (list nat)) (cost : list num)
  (degree2eq subtour2edge : list (list num)) (edges : list (nat * nat))
  : option (list (list num)) :=
  if length deltas =? 1 then
    (* lines 159-178 *)
    comb <- combined_degree num_edges edges degree2eq ;;
    d <- get deltas 0 ;;
    row <- for_up 0 (length d) (repeat n0 num_edges) (fun row i =>
      e <- get d i ;;
      a <- get comb e ;;
      c <- get cost e ;;
      set row e (nadd a c)) ;;
    Some [row]
  else
    (* lines 180-214 *)
    subs <- sum_rows num_edges subtour2edge ;;
    comb <- combined_degree num_edges edges degree2eq ;;
    for_up 0 (length deltas) [] (fun acc s =>
      d <- get deltas s ;;
      row <- for_up 0 (length d) (repeat n0 num_edges) (fun row i =>
        e <- get d i ;;
        x <- get subs e ;;
        a <- get comb e ;;
        c <- get cost e ;;
        m <- get2 subtour2edge s e ;;
        set row e (nsub (nadd (nadd x a) c) m)) ;;
      Some (acc ++ [row])).

(** update_equality_constraint.hpp:229-255 *)
Definition edge_to_degree_augmented (num_edges : nat) (degree2eq subtour2edge : list (list num))
  (edges : list (nat * nat)) (cost out : list (list num)) : option (list (list num)) :=
  subs <- sum_rows num_edges subtour2edge ;;
  for_up 0 (length edges) out (fun out i =>
    ' (u, v) <- get edges i ;;
    s <- get subs i ;;
    dv <- get2 degree2eq i v ;;
    cu <- get2 cost i u ;;
    out <- set2 out i u (nadd (nadd s dv) cu) ;;
    du <- get2 degree2eq i u ;;
    cv <- get2 cost i v ;;
    set2 out i v (nadd (nadd s du) cv)).
