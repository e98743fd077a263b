(** * Model: degree and subtour-elimination message updates (C++).

    include/impalib/update_degree_constraint.hpp:70-155 and
    include/impalib/subtour_elimination_constraint.hpp:58-105.

    Both functions run the same forward/backward recursion over a list of edge indices
    ([conn]); it is written once here.  [rd e] reads the incoming message of edge [e]:
    [rEdgeEc2DegreeConstraintM[e][node_index]] in the degree update,
    [rEdgeEc2SubtourConstraintsM[index_subtour_constraint][e]] in the subtour update. *)
From Verif Require Import Num Arr.
Local Open Scope nat_scope.

(** update_degree_constraint.hpp:95-103 and :127-135;
    subtour_elimination_constraint.hpp:69-76.
    [initial_forward_message_] is [value_inf] (update_degree_constraint.hpp:57,
    subtour_elimination_constraint.hpp:46). *)
Definition fwd_pass (conn : list nat) (rd : nat -> option num) (fwd : list num)
  : option (list num) :=
  c0 <- get conn 0 ;;
  fwd <- set fwd c0 PInf ;;
  for_up 1 (length conn) fwd (fun fwd stage =>
    c <- get conn stage ;;
    p <- get conn (stage - 1) ;;
    a <- get fwd p ;;
    m <- rd p ;;
    set fwd c (nmin a m)).

(** update_degree_constraint.hpp:106-113 and :138-145;
    subtour_elimination_constraint.hpp:79-89.  [conn.size() - 1] underflows for an empty
    list, which then indexes out of range: the model fails there. *)
Definition bwd_pass (conn : list nat) (rd : nat -> option num) (bwd : list num)
  : option (list num) :=
  last <- match length conn with O => None | S k => get conn k end ;;
  bwd <- set bwd (last + 1) PInf ;;
  for_down 1 (length conn) bwd (fun bwd stage =>
    c <- get conn stage ;;
    p <- get conn (stage - 1) ;;
    a <- get bwd (c + 1) ;;
    m <- rd c ;;
    set bwd (p + 1) (nmin a m)).

(** update_degree_constraint.hpp:115-121 and :147-153;
    subtour_elimination_constraint.hpp:92-103.  [wr out e v] stores the message of edge [e];
    [post] is the final transformation of the minimum. *)
Definition out_pass {O} (conn : list nat) (fwd bwd : list num) (post : num -> num)
  (wr : O -> nat -> num -> option O) (out : O) : option O :=
  for_up 0 (length conn) out (fun out k =>
    c <- get conn k ;;
    a <- get fwd c ;;
    b <- get bwd (c + 1) ;;
    wr out c (post (nmin a b))).

(** update_degree_constraint.hpp:79-92: the two [push_back] lists of one node.  An edge is a
    pair (simplification: [rEdgeConnections[i]] has exactly [numNodesPerEdge] = 2 entries). *)
Fixpoint connections (edges : list (nat * nat)) (node i : nat) (first second : list nat)
  : list nat * list nat :=
  match edges with
  | [] => (first, second)
  | (u, v) :: edges =>
      if node =? u then connections edges node (i + 1) (first ++ [i]) second
      else if node =? v then connections edges node (i + 1) first (second ++ [i])
      else connections edges node (i + 1) first second
  end.

(** update_degree_constraint.hpp:77-154, body of the loop over nodes.  The two stage arrays
    live across nodes and are zero-filled only between the two halves (lines 123-124). *)
Definition degree_node (edges : list (nat * nat)) (msgs : list (list num))
  (st : list num * list num * list (list num)) (node : nat)
  : option (list num * list num * list (list num)) :=
  let '(fwd, bwd, out) := st in
  let '(first, second) := connections edges node 0 [] [] in
  let rd e := get2 msgs e node in
  let wr out e v := set2 out e node v in
  fwd <- fwd_pass first rd fwd ;;
  bwd <- bwd_pass first rd bwd ;;
  out <- out_pass first fwd bwd nopp wr out ;;
  let fwd := repeat n0 (length fwd) in
  let bwd := repeat n0 (length bwd) in
  fwd <- fwd_pass second rd fwd ;;
  bwd <- bwd_pass second rd bwd ;;
  out <- out_pass second fwd bwd nopp wr out ;;
  Some (fwd, bwd, out).

(** update_degree_constraint.hpp:70-155.  [numEdgeVariables_] is the number of edges. *)
Definition degree_update (num_nodes num_edges : nat) (edges : list (nat * nat))
  (msgs out : list (list num)) : option (list (list num)) :=
  ' (_, _, out) <- for_up 0 num_nodes
      (repeat n0 (num_edges + 1), repeat n0 (num_edges + 1), out)
      (degree_node edges msgs) ;;
  Some out.

(** subtour_elimination_constraint.hpp:65-104, body of the loop over constraints. *)
Definition subtour_one (deltas : list (list nat)) (msgs : list (list num))
  (st : list num * list num * list (list num)) (s : nat)
  : option (list num * list num * list (list num)) :=
  let '(fwd, bwd, out) := st in
  conn <- get deltas s ;;
  let rd e := get2 msgs s e in
  let wr out e v := set2 out s e v in
  fwd <- fwd_pass conn rd fwd ;;
  bwd <- bwd_pass conn rd bwd ;;
  out <- out_pass conn fwd bwd (fun v => nmin (nopp v) n0) wr out ;;
  Some (fwd, bwd, out).

(** subtour_elimination_constraint.hpp:58-105 *)
Definition subtour_update (num_edges : nat) (deltas : list (list nat))
  (msgs out : list (list num)) : option (list (list num)) :=
  ' (_, _, out) <- for_up 0 (length deltas)
      (repeat n0 (num_edges + 1), repeat n0 (num_edges + 1), out)
      (subtour_one deltas msgs) ;;
  Some out.
