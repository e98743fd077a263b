(** * Detection of closed loops among the selected edges (C++).

    include/impalib/graphical_model.hpp:711-854.  [unordered_map<int, vector<int>>] is an
    association list; the order in which the C++ map is iterated is a parameter [ord] of the
    functions that iterate over it: a function from the keys, in order of insertion, to the keys
    in order of iteration. *)
From Verif Require Import Arr.
Local Open Scope nat_scope.

Definition graph := list (nat * list nat).
(** [rGraph.find(u)] *)
Fixpoint lookup (g : graph) (u : nat) : option (list nat) :=
  match g with
  | [] => None
  | (k, vs) :: g => if k =? u then Some vs else lookup g u
  end.
(** graphical_model.hpp:713-719: append to an existing entry, or create one *)
Fixpoint append_to (g : graph) (u v : nat) : graph :=
  match g with
  | [] => []
  | (k, vs) :: g => if k =? u then (k, vs ++ [v]) :: g else (k, vs) :: append_to g u v
  end.
Definition add_edge (g : graph) (e : nat * nat) : graph :=
  match lookup g (fst e) with
  | Some _ => append_to g (fst e) (snd e)
  | None => g ++ [(fst e, [snd e])]
  end.
Definition build_graph (edges : list (nat * nat)) : graph := fold_left add_edge edges [].
Definition keys (g : graph) : list nat := map fst g.

(** graphical_model.hpp:826-854 [find_closed_loop].  [visited] and [path] are passed by value.
    The empty path means that no loop was found.  The recursion is bounded by [fuel]
    ([None] = not enough; P_Tsp_Loops.v shows that the fuel given below always suffices). *)
Fixpoint find_closed_loop (fuel : nat) (g : graph) (start cur : nat) (visited path : list nat)
  : option (list nat) :=
  match fuel with
  | O => None
  | S fuel =>
      let visited := cur :: visited in
      let path := path ++ [cur] in
      if cur =? start then Some path else
      match lookup g cur with
      | None => Some []
      | Some nodes =>
          (fix search (nodes : list nat) : option (list nat) :=
             match nodes with
             | [] => Some []
             | node :: nodes =>
                 if existsb (Nat.eqb node) visited then search nodes else
                 p <- find_closed_loop fuel g start node visited path ;;
                 match p with [] => search nodes | _ => Some p end
             end) nodes
      end
  end.

(** graphical_model.hpp:721-740; [visited_nodes] is never filled, so no start node is skipped *)
Definition all_loops (ord : list nat -> list nat) (edges : list (nat * nat))
  : option (list (list nat)) :=
  let g := build_graph edges in
  foldM (fun loops start =>
    match lookup g start with
    | None => None
    | Some ends =>
        foldM (fun loops e =>
          p <- find_closed_loop (length edges + 1) g start e [] [] ;;
          match p with [] => Some loops | _ => Some (loops ++ [p]) end) ends loops
    end) (ord (keys g)) [].

(** graphical_model.hpp:799-806 [isSubsequence]; only called with [|sub| <= |seq|] *)
Definition list_eqb (a b : list nat) : bool := if list_eq_dec Nat.eq_dec a b then true else false.
Definition is_subsequence (s sub : list nat) : bool :=
  existsb (fun i => list_eqb (firstn (length sub) (skipn i s)) sub)
          (seq 0 (length s - length sub)).

(** graphical_model.hpp:746-775: indices of loops to drop *)
Definition drop_inner (loops : list (list nat)) (l1 : list nat) (rem : list nat) (j : nat)
  : list nat :=
  let l2 := nth j loops [] in
  let rem := if length l2 =? 0 then rem ++ [j] else rem in
  if length (l1 ++ l1) <? length l2 then rem
  else if is_subsequence (l1 ++ l1) l2 then rem ++ [j] else rem.
Definition drop_outer (loops : list (list nat)) (rem : list nat) (i : nat) : list nat :=
  let l1 := nth i loops [] in
  if length l1 =? 0 then rem ++ [i]
  else if existsb (Nat.eqb i) rem then rem
  else fold_left (drop_inner loops l1) (seq (i + 1) (length loops - (i + 1))) rem.
Definition to_drop (loops : list (list nat)) : list nat :=
  fold_left (drop_outer loops) (seq 0 (length loops)) [].
(** graphical_model.hpp:777-782 *)
Definition keep_loops (loops : list (list nat)) : list (list nat) :=
  map (fun i => nth i loops [])
      (filter (fun i => negb (existsb (Nat.eqb i) (to_drop loops))) (seq 0 (length loops))).

(** graphical_model.hpp:711-785 [get_closed_loops] *)
Definition get_closed_loops (ord : list nat -> list nat) (edges : list (nat * nat))
  : option (list (list nat)) :=
  loops <- all_loops ord edges ;; Some (keep_loops loops).
