(** * Search for a closed loop of a given length (Python).

    src/impa/Impa.py:998-1073, [GraphicalModelTsp.find_loops] and [get_loops].  No other method calls
    them.  The dictionary is an association list in order of insertion (as in M_Tsp_Loops.v). *)
From Verif Require Import Arr M_Tsp_Loops.
Local Open Scope nat_scope.

(** Impa.py:998-1037.  [visited] is copied for every call and [path] never changed; [seen] is
    [self.visited_nodes_loop], which all calls share.  The inner [None] is Python's [None]; the outer
    one means that the bound on the depth of the recursion was too small (P_Tsp_GetLoops.v: it is not). *)
Fixpoint find_loops (fuel : nat) (g : graph) (start cur : nat) (visited path seen : list nat)
  : option (option (list nat) * list nat) :=
  match fuel with
  | O => None
  | S fuel =>
      let visited := cur :: visited in
      let seen := seen ++ [cur] in
      let path := path ++ [cur] in
      if cur =? start then Some (Some path, seen) else
      match lookup g cur with
      | None => Some (None, seen)
      | Some nodes =>
          (fix search (nodes seen : list nat) : option (option (list nat) * list nat) :=
             match nodes with
             | [] => Some (None, seen)
             | node :: nodes =>
                 if existsb (Nat.eqb node) visited then search nodes seen else
                 ' (r, seen) <- find_loops fuel g start node visited path seen ;;
                 match r with Some (x :: p) => Some (Some (x :: p), seen) | _ => search nodes seen end
             end) nodes seen
      end
  end.

(** Impa.py:1066-1073: the ends of one start node *)
Fixpoint try_ends (fuel : nat) (g : graph) (path_length start : nat) (ends seen : list nat)
  : option (option (list nat) * list nat) :=
  match ends with
  | [] => Some (None, seen)
  | e :: ends =>
      ' (r, seen) <- find_loops fuel g start e [] [] seen ;;
      match r with
      | Some l => if length l =? path_length then Some (Some l, seen) else try_ends fuel g path_length start ends seen
      | None => try_ends fuel g path_length start ends seen
      end
  end.
(** Impa.py:1060-1073 *)
Fixpoint try_starts (fuel : nat) (g : graph) (path_length : nat) (entries : graph) (seen : list nat)
  : option (option (list nat)) :=
  match entries with
  | [] => Some None
  | (start, ends) :: entries =>
      if existsb (Nat.eqb start) seen then try_starts fuel g path_length entries seen else
      ' (r, seen) <- try_ends fuel g path_length start ends seen ;;
      match r with Some l => Some (Some l) | None => try_starts fuel g path_length entries seen end
  end.
(** Impa.py:1039-1073 *)
Definition get_loops (edges : list (nat * nat)) (path_length : nat) : option (option (list nat)) :=
  let g := build_graph edges in try_starts (length edges + 1) g path_length g [].
