(** * Model: whole runs of the pure Python TSP solver.

    test/python_tsp/src/graphical_model.py and main_tsp.py:167-171 with the constraint classes of
    M_PyRef.v.  [None] is a Python exception.  Not modelled: printing, timing, the reference solvers
    (221-232), saving (233-248), the lists of open paths (317, 397-419), which only feed prints and
    saved results. *)
From Verif Require Import Num Arr M_InOut M_Runs M_Tsp_Loops M_Tsp_Py M_PyRef M_PyRef_Ksat M_PyRef_Run.
Local Open Scope nat_scope.

(** ** Messages *)

(** Attributes of the model and of its constraint objects.  [pm_deg] is absent before the first
    iteration, the [.._old] arrays before the first filtered one. *)
Record pt_msgs := {
  pm_e2d : list (list num);
  pm_deg : option (list (list num));
  pm_deg_old : option (list (list num));
  pm_sub : list (list num);
  pm_sub_old : option (list (list num)) }.

(** Settings: graphical_model.py:27-39 *)
Record pt_options := {
  po_iters : nat; po_aug : bool; po_reset : bool; po_filt : bool; po_alpha : num; po_thr : num }.
(** What [initialize] (41-136) leaves: number of nodes, cost matrix, edges, costs of the edges, and
    the matrix that is both the first messages and the degree costs (103-105).  The matrix is not
    changed while both names refer to it: the messages are replaced by a new array in every
    iteration, and the assignments of a reset before any iteration write the values it holds. *)
Record pt_data := {
  pd_n : nat; pd_cm : list (list num); pd_edges : list (nat * nat); pd_cost : list num;
  pd_degree_cost : list (list num) }.

(** graphical_model.py:41-136 with a given cost matrix; the edges (169) and arrays (79-100) are built
    by the same statements as in Impa.py *)
Definition py_tsp_initialize (n : nat) (cm : list (list num)) : option pt_data :=
  let E := py_edges cm in
  ' (cost, m) <- py_tsp_arrays n cm E ;;
  Some {| pd_n := n; pd_cm := cm; pd_edges := E; pd_cost := cost; pd_degree_cost := m |}.

(** graphical_model.py:182-186 *)
Definition py_relaxed_step (o : pt_options) (d : pt_data) (m : pt_msgs) (iter : nat) : option pt_msgs :=
  dummy <- py_degree_update (pd_n d) (py_num_edges (pd_n d)) (pd_edges d) (pm_e2d m) ;;
  ' (deg, old) <- py_filtering (po_filt o) (po_alpha o) iter dummy (pm_deg_old m) ;;
  e2d <- py_edge_to_degree_relaxed (pd_edges d) (pd_degree_cost d) deg ;;
  Some {| pm_e2d := e2d; pm_deg := Some deg; pm_deg_old := old; pm_sub := pm_sub m;
          pm_sub_old := pm_sub_old m |}.

(** graphical_model.py:175-190 [iterate_relaxed_graph]: messages and intrinsic output *)
Definition py_iterate_relaxed (o : pt_options) (d : pt_data) (m : pt_msgs)
  : option (pt_msgs * list num) :=
  m <- for_up 0 (po_iters o) m (py_relaxed_step o d) ;;
  deg <- pm_deg m ;;
  intr <- np_add (py_extrinsic_relaxed deg) (pd_cost d) ;;
  Some (m, intr).

(** graphical_model.py:254-261 *)
Definition py_reset (edges : list (nat * nat)) (cm e2d : list (list num)) : option (list (list num)) :=
  for_up 0 (length edges) e2d (fun e2d i =>
    ' (u, v) <- get edges i ;;
    c <- get2 cm u v ;;
    e2d <- set2 e2d i u c ;;
    set2 e2d i v c).

(** graphical_model.py:270-291 *)
Definition py_augmented_step (o : pt_options) (d : pt_data) (deltas : list (list nat))
  (m : pt_msgs) (iter : nat) : option pt_msgs :=
  let e := py_num_edges (pd_n d) in
  dummy <- py_degree_update (pd_n d) e (pd_edges d) (pm_e2d m) ;;
  ' (deg, old) <- py_filtering (po_filt o) (po_alpha o) iter dummy (pm_deg_old m) ;;
  e2s <- py_edge_to_subtour e deltas (pd_cost d) deg (pm_sub m) ;;
  sdummy <- py_subtour_update e deltas e2s ;;
  ' (sub, sold) <- py_filtering (po_filt o) (po_alpha o) iter sdummy (pm_sub_old m) ;;
  e2d <- py_edge_to_degree_augmented (pd_edges d) (pd_degree_cost d) deg sub ;;
  Some {| pm_e2d := e2d; pm_deg := Some deg; pm_deg_old := old; pm_sub := sub; pm_sub_old := sold |}.

(** graphical_model.py:250-298 [iterate_augmented_graph] *)
Definition py_iterate_augmented (o : pt_options) (d : pt_data) (deltas : list (list nat)) (m : pt_msgs)
  : option (pt_msgs * list num) :=
  e2d <- (if po_reset o then py_reset (pd_edges d) (pd_cm d) (pm_e2d m) else Some (pm_e2d m)) ;;
  m <- for_up 0 (po_iters o)
         {| pm_e2d := e2d; pm_deg := pm_deg m; pm_deg_old := pm_deg_old m; pm_sub := pm_sub m;
            pm_sub_old := pm_sub_old m |} (py_augmented_step o d deltas) ;;
  deg <- pm_deg m ;;
  ext <- py_extrinsic_augmented deg (pm_sub m) ;;
  intr <- np_add ext (pd_cost d) ;;
  Some (m, intr).

(** ** Hard decision: graphical_model.py:470-480 *)

(** [a[hd == 1]]: IndexError unless the mask has the length of the array *)
Definition np_mask {A} (hd : list num) (a : list A) : option (list A) :=
  if length hd =? length a
  then Some (map snd (filter (fun p => neqb (fst p) n1) (combine hd a))) else None.
(** decisions, selected edges and their cost *)
Definition py_hard_decision (o : pt_options) (d : pt_data) (intr : list num)
  : option (list num * list (nat * nat) * num) :=
  let hd := map (py_hard (po_thr o)) intr in
  sel <- np_mask hd (pd_edges d) ;;
  c <- np_mask hd (pd_cost d) ;;
  Some (hd, sel, np_sum c).

(** ** Closed loops *)

(** graphical_model.py:300-330 [find_closed_loop_new]; [visited] is copied for every call and [path]
    never changed.  The inner [None] is Python's [None]; the outer one means that the bound on the
    depth of the recursion was too small (P_PyRef_Tsp.v: it is not). *)
Fixpoint py_find_loop (fuel : nat) (g : graph) (start cur : nat) (visited path : list nat)
  : option (option (list nat)) :=
  match fuel with
  | O => None
  | S fuel =>
      let visited := cur :: visited in
      let path := path ++ [cur] in
      if cur =? start then Some (Some path) else
      match lookup g cur with
      | None => Some None
      | Some nodes =>
          (fix search (nodes : list nat) : option (option (list nat)) :=
             match nodes with
             | [] => Some None
             | node :: nodes =>
                 if existsb (Nat.eqb node) visited then search nodes else
                 r <- py_find_loop fuel g start node visited path ;;
                 match r with Some (x :: p) => Some (Some (x :: p)) | _ => search nodes end
             end) nodes
      end
  end.

(** graphical_model.py:336-360.  The dictionary is iterated in order of insertion;
    [visited_nodes] stays empty. *)
Definition py_all_loops (edges : list (nat * nat)) : option (list (option (list nat))) :=
  let g := build_graph edges in
  foldM (fun loops entry =>
    foldM (fun loops e =>
      r <- py_find_loop (length edges + 1) g (fst entry) e [] [] ;; Some (loops ++ [r]))
      (snd entry) loops) g [].

(** graphical_model.py:374-385: indices to remove *)
Definition py_slice_of (l1 l2 : list nat) : bool :=
  existsb (fun i => list_eqb (firstn (length l2) (skipn i (l1 ++ l1))) l2) (seq 0 (length l1)).
Definition py_drop_inner (loops : list (option (list nat))) (l1 : list nat) (rem : list nat) (j : nat)
  : list nat :=
  match nth j loops None with
  | None => rem ++ [j]
  | Some l2 => if py_slice_of l1 l2 then rem ++ [j] else rem
  end.
(** graphical_model.py:364-385 *)
Definition py_drop_outer (loops : list (option (list nat))) (rem : list nat) (i : nat) : list nat :=
  match nth i loops None with
  | None => rem ++ [i]
  | Some l1 =>
      if existsb (Nat.eqb i) rem then rem
      else fold_left (py_drop_inner loops l1) (seq (i + 1) (length loops - (i + 1))) rem
  end.
(** graphical_model.py:389-393 [sublist.insert(0, sublist.pop(-1))]: exception on [None] and on an
    empty list *)
Definition py_rotate (l : option (list nat)) : option (list nat) :=
  match l with
  | Some (x :: l) => Some (last (x :: l) 0 :: removelast (x :: l))
  | _ => None
  end.
(** graphical_model.py:332-395 [get_closed_loops] *)
Definition py_get_closed_loops (edges : list (nat * nat)) : option (list (list nat)) :=
  loops <- py_all_loops edges ;;
  let rem := fold_left (py_drop_outer loops) (seq 0 (length loops)) [] in
  mapM (fun i => py_rotate (nth i loops None))
    (filter (fun i => negb (existsb (Nat.eqb i) rem)) (seq 0 (length loops))).

(** ** Subtour analysis *)

(** graphical_model.py:440-452: consecutive nodes and the closing pair *)
Definition py_pairs (l : list nat) : list (nat * nat) :=
  combine l (tl l) ++ [(last l 0, hd 0 l)].
(** graphical_model.py:453 [pair in self.edge_connections]: true when some entry of the array equals
    the entry of [pair] in the same column; [.index(pair)] raises when no row equals [pair] *)
Definition py_index (edges : list (nat * nat)) (pr : nat * nat) : option nat :=
  hd_error (indices (fun e => (fst e =? fst pr) && (snd e =? snd pr)) edges).
Definition py_indices (edges : list (nat * nat)) (l : list nat) : option (list nat) :=
  mapM (py_index edges)
    (filter (fun pr => existsb (fun e => (fst e =? fst pr) || (snd e =? snd pr)) edges) (py_pairs l)).
(** [itertools.permutations(l, 2)] *)
Definition py_permutations2 (l : list nat) : list (nat * nat) :=
  concat (map (fun i => map (fun j => (nth i l 0, nth j l 0))
    (filter (fun j => negb (j =? i)) (seq 0 (length l)))) (seq 0 (length l))).
(** graphical_model.py:456-466 *)
Definition py_delta (edges : list (nat * nat)) (l : list nat) : list nat :=
  indices (fun c => negb (existsb (fun q => (fst q =? fst c) && (snd q =? snd c)) (py_permutations2 l))
                    && existsb (Nat.eqb (fst c)) l) edges.

Record pt_state := {
  pt_msgs_of : pt_msgs;
  pt_intr : list num;
  pt_hd : list num;
  pt_selected : list (nat * nat);
  pt_cost : num;
  pt_loops : list (list nat);
  pt_deltas : list (list nat);
  pt_tour : list nat;             (* absent until a tour is found *)
  pt_tour_flag : bool;
  pt_satisfied : bool }.

(** graphical_model.py:421-468 [subtour_elimination_constraints_analysis] after the hard decision
    [hd], [sel], [cost].  The comparison at 454 only prints; the indices it uses are computed. *)
Definition py_analysis (d : pt_data) (m : pt_msgs) (intr : list num)
  (dec : list num * list (nat * nat) * num)
  (deltas : list (list nat)) (tour : list nat) (flag satisfied : bool) : option pt_state :=
  let '(hd, sel, cost) := dec in
  loops <- py_get_closed_loops sel ;;
  match loops with
  | [] =>
      Some {| pt_msgs_of := m; pt_intr := intr; pt_hd := hd; pt_selected := sel; pt_cost := cost;
              pt_loops := loops; pt_deltas := deltas; pt_tour := tour; pt_tour_flag := flag;
              pt_satisfied := satisfied |}
  | first :: rest =>
      if (length loops =? 1) && (length first =? pd_n d) then
        h <- get first 0 ;;
        Some {| pt_msgs_of := m; pt_intr := intr; pt_hd := hd; pt_selected := sel; pt_cost := cost;
                pt_loops := loops; pt_deltas := deltas; pt_tour := first ++ [h]; pt_tour_flag := true;
                pt_satisfied := true |}
      else
        deltas <- foldM (fun ds l =>
          idx <- py_indices (pd_edges d) l ;;
          _ <- np_take hd idx ;;
          let dl := py_delta (pd_edges d) l in
          Some (if existsb (fun d' => list_eqb d' dl) ds then ds else ds ++ [dl])) loops deltas ;;
        Some {| pt_msgs_of := m; pt_intr := intr; pt_hd := hd; pt_selected := sel; pt_cost := cost;
                pt_loops := loops; pt_deltas := deltas; pt_tour := tour; pt_tour_flag := false;
                pt_satisfied := false |}
  end.

(** ** The run *)
Inductive pt_outcome := PyDone (st : pt_state) | PyExit | PyRunning (st : pt_state).

Definition set_sub (st : pt_state) (sub : list (list num)) : pt_state :=
  let m := pt_msgs_of st in
  {| pt_msgs_of := {| pm_e2d := pm_e2d m; pm_deg := pm_deg m; pm_deg_old := pm_deg_old m;
                      pm_sub := sub; pm_sub_old := pm_sub_old m |};
     pt_intr := pt_intr st; pt_hd := pt_hd st; pt_selected := pt_selected st; pt_cost := pt_cost st;
     pt_loops := pt_loops st; pt_deltas := pt_deltas st; pt_tour := pt_tour st;
     pt_tour_flag := pt_tour_flag st; pt_satisfied := pt_satisfied st |}.

(** graphical_model.py:206: equal numbers of edges and equal sets of unordered pairs *)
Definition same_pair (a b : nat * nat) : bool :=
  ((fst a =? fst b) && (snd a =? snd b)) || ((fst a =? snd b) && (snd a =? fst b)).
Definition py_same_selection (a b : list (nat * nat)) : bool :=
  (length a =? length b) && forallb (fun x => existsb (same_pair x) b) a
  && forallb (fun x => existsb (same_pair x) a) b.

(** graphical_model.py:203-215: one round; [None] inside: the process ends at 211 *)
Definition py_round (o : pt_options) (d : pt_data) (st : pt_state) : option (option pt_state) :=
  ' (m, intr) <- py_iterate_augmented o d (pt_deltas st) (pt_msgs_of st) ;;
  dec <- py_hard_decision o d intr ;;
  if py_same_selection (snd (fst dec)) (pt_selected st) && existsb (existsb is_nan) (pm_e2d m)
  then Some None else
  st' <- py_analysis d m intr dec (pt_deltas st) (pt_tour st) (pt_tour_flag st) (pt_satisfied st) ;;
  let have := length (pm_sub (pt_msgs_of st')) in
  let want := length (pt_deltas st') in
  Some (Some (if have =? want then st'
              else set_sub st' (pm_sub (pt_msgs_of st') ++ np_zeros (want - have) (py_num_edges (pd_n d))))).

(** graphical_model.py:202-215: the [while] loop, at most [fuel] rounds *)
Fixpoint py_rounds (fuel : nat) (o : pt_options) (d : pt_data) (st : pt_state) : option pt_outcome :=
  if negb (pt_satisfied st) && po_aug o && negb (pt_tour_flag st) then
    match fuel with
    | O => Some (PyRunning st)
    | S fuel =>
        r <- py_round o d st ;;
        match r with Some st => py_rounds fuel o d st | None => Some PyExit end
    end
  else Some (PyDone st).

(** main_tsp.py:167-171: [initialize], [iterate_relaxed_graph], [pre_analysis] up to line 215 *)
Definition py_tsp_reference (fuel : nat) (o : pt_options) (n : nat) (cm : list (list num))
  : option pt_outcome :=
  d <- py_tsp_initialize n cm ;;
  ' (m, intr) <- py_iterate_relaxed o d
       {| pm_e2d := pd_degree_cost d; pm_deg := None; pm_deg_old := None; pm_sub := []; pm_sub_old := None |} ;;
  dec <- py_hard_decision o d intr ;;
  st <- py_analysis d m intr dec [] [] false false ;;
  let st := if negb (pt_satisfied st) && po_aug o
            then set_sub st (np_zeros (length (pt_deltas st)) (py_num_edges n)) else st in
  py_rounds fuel o d st.
