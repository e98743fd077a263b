(** * Python: reading the results of a TSP call and post-processing them

    src/impa/Impa.py, class GraphicalModelTsp, lines 355-950.  Printing is left out.  Nodes, indices
    and counts are [nat]; lists compared with [in] are compared element by element, as in Python.
    [None] is an uncaught exception. *)
From Verif Require Import Num Arr M_InOut M_Tsp_Loops M_Tsp_Run M_Tsp_Py M_Ksat_Py.
Local Open Scope nat_scope.

Definition edge_mem (e : nat * nat) (l : list (nat * nat)) : bool := existsb (edge_eqb e) l.
Definition enumerate {A} (l : list A) : list (nat * A) := combine (seq 0 (length l)) l.

(** [np.argmin]: position of the first minimum; a NaN counts as smaller than everything else.
    ValueError for an empty argument. *)
Definition np_less (a b : num) : bool := negb (is_nan b) && (is_nan a || nlt a b).
Fixpoint argmin_from (best : num) (at_ i : nat) (l : list num) : nat :=
  match l with
  | [] => at_
  | x :: l => if np_less x best then argmin_from x i (i + 1) l else argmin_from best at_ (i + 1) l
  end.
Definition np_argmin (l : list num) : option nat :=
  match l with [] => None | x :: l => Some (argmin_from x 0 1 l) end.

(** [sum(...)] over numbers *)
Definition py_sum (l : list num) : num := fold_left nadd l n0.

(** ** Reading the results *)

(** Impa.py:388-390 *)
Fixpoint pairs_of (l : list nat) : option (list (nat * nat)) :=
  match l with
  | [] => Some []
  | [_] => None
  | u :: v :: l => r <- pairs_of l ;; Some ((u, v) :: r)
  end.
(** Impa.py:393-408: [islice] stops at the end of the list, so do [skipn] and [firstn] *)
Fixpoint cut (sizes : list nat) (flat : list nat) : list (list nat) :=
  match sizes with
  | [] => []
  | k :: sizes => firstn k flat :: cut sizes (skipn k flat)
  end.
Definition read_paths (sizes flat : list nat) : option (list (list nat)) :=
  let sizes := filter (fun k => negb (k =? 0)) sizes in
  if nonempty sizes then Some (cut sizes (firstn (list_sum sizes) flat)) else None.
(** Impa.py:431-432 *)
Definition close_paths (paths : list (list nat)) : list (list nat) :=
  flat_map (fun l => match l with [] => [] | x :: _ => [l ++ [x]] end) paths.
(** Impa.py:414-418 *)
Definition read_tour (tour : list nat) : option (list nat) :=
  if forallb (fun x => x =? 0) tour then None else Some tour.

(** ** Graphs *)

(** a dictionary from nodes to predecessors and successors, in order of insertion *)
Definition graph := list (nat * (list nat * list nat)).
Fixpoint g_find (g : graph) (u : nat) : option (list nat * list nat) :=
  match g with
  | [] => None
  | (k, io) :: g => if k =? u then Some io else g_find g u
  end.
Fixpoint add_out (g : graph) (u v : nat) : graph :=
  match g with
  | [] => [(u, ([], [v]))]
  | (k, (i, o)) :: g => if k =? u then (k, (i, o ++ [v])) :: g else (k, (i, o)) :: add_out g u v
  end.
Fixpoint add_in (g : graph) (v u : nat) : graph :=
  match g with
  | [] => [(v, ([u], []))]
  | (k, (i, o)) :: g => if k =? v then (k, (i ++ [u], o)) :: g else (k, (i, o)) :: add_in g v u
  end.
(** Impa.py:515-538 *)
Definition construct_graph (selected : list (nat * nat)) : graph :=
  fold_left (fun g e => add_in (add_out g (fst e) (snd e)) (snd e) (fst e)) selected [].

(** ** Removing edges at nodes of too high degree *)

(** Impa.py:593-598: position of an edge in the list of all edges.  Where Python would go on with
    [None] as an index the model stops. *)
Fixpoint edge_index_from (i : nat) (E : list (nat * nat)) (e : nat * nat) : option nat :=
  match E with
  | [] => None
  | x :: E => if edge_eqb x e then Some i else edge_index_from (i + 1) E e
  end.
Definition edge_index := edge_index_from 0.
(** the edge whose intrinsic value is closest to zero among the given edges: 605-606 and 638-639 *)
Definition weakest (E : list (nat * nat)) (intr : list num) (idx : list nat) : option (nat * nat) :=
  vals <- mapM (get intr) idx ;;
  m <- np_argmin (map nabs vals) ;;
  i <- get idx m ;;
  get E i.
(** Impa.py:586-618: the [while] loop; [conns] are the edges on one side of a node, [per] is
    [removed_edges_per_node] *)
Fixpoint trim (fuel : nat) (E : list (nat * nat)) (intr : list num) (conns per removed : list (nat * nat))
  : option (list (nat * nat)) :=
  if 1 <? length conns - length per then
    match fuel with
    | 0 => None
    | S fuel =>
        idx <- mapM (edge_index E) (filter (fun e => negb (edge_mem e removed)) conns) ;;
        if nonempty idx then
          e <- weakest E intr idx ;;
          trim fuel E intr conns (if edge_mem e per then per else per ++ [e])
               (if edge_mem e removed then removed else removed ++ [e])
        else Some removed
    end
  else Some removed.
(** Impa.py:566-620.  The loop of [trim] ends after at most one round per edge. *)
Definition excess (io : list nat * list nat) : bool := (1 <? length (fst io)) || (1 <? length (snd io)).
Definition trim_node (E : list (nat * nat)) (intr : list num) (removed : list (nat * nat))
  (k : nat * (list nat * list nat)) : option (list (nat * nat)) :=
  let ins := map (fun u => (u, fst k)) (fst (snd k)) in
  let outs := map (fun v => (fst k, v)) (snd (snd k)) in
  removed <- trim (length ins) E intr ins [] removed ;;
  trim (length outs) E intr outs [] removed.
Definition removed_degree (E : list (nat * nat)) (intr : list num) (selected : list (nat * nat))
  : option (list (nat * nat)) :=
  foldM (trim_node E intr) (filter (fun k => excess (snd k)) (construct_graph selected)) [].

(** ** Breaking subtours *)

(** Impa.py:487-509, one path: pieces, and whether an edge was removed *)
Fixpoint clean_path (removed : list (nat * nat)) (path new_path : list nat) : list (list nat) * bool :=
  match path with
  | [] => (if nonempty new_path then [new_path] else [], false)
  | x :: t =>
      match t with
      | [] => ([new_path ++ [x]], false)
      | y :: _ =>
          if edge_mem (x, y) removed then
            ((if nonempty new_path then [new_path ++ [x]] else []) ++ fst (clean_path removed t []), true)
          else clean_path removed t (new_path ++ [x])
      end
  end.
(** paths that are not contained in another one: Impa.py:511, 916 *)
Definition maximal (paths : list (list nat)) : list (list nat) :=
  map snd (filter (fun ip =>
    negb (existsb (fun jq => negb (fst ip =? fst jq) && forallb (fun u => mem u (snd jq)) (snd ip))
            (enumerate paths))) (enumerate paths)).
(** Impa.py:467-513 *)
Definition paths_cleaning (removed : list (nat * nat)) (paths : list (list nat)) : list (list nat) * list bool :=
  let r := map (fun p => clean_path removed p []) paths in
  (maximal (concat (map fst r)), map snd r).

(** Impa.py:839-855; [np.where] lists an index once per matching pair *)
Definition rotate_left (l : list nat) : list nat := match l with [] => [] | x :: l => l ++ [x] end.
Definition closing_pairs (tour : list nat) : list (nat * nat) := combine tour (rotate_left tour).
Definition tour_indices (E : list (nat * nat)) (tour : list nat) : list nat :=
  flat_map (fun ie => repeat (fst ie) (length (filter (edge_eqb (snd ie)) (closing_pairs tour)))) (enumerate E).
Definition tour_cost (E : list (nat * nat)) (cost : list num) (tour : list nat) : option num :=
  vals <- mapM (get cost) (tour_indices E tour) ;; Some (py_sum vals).

(** Impa.py:627-642 *)
Definition removed_subtours (E : list (nat * nat)) (intr : list num) (paths : list (list nat)) (broken : list bool)
  : option (list (nat * nat)) :=
  foldM (fun removed (pb : list nat * bool) =>
    if snd pb then Some removed
    else e <- weakest E intr (tour_indices E (fst pb)) ;; Some (removed ++ [e])) (combine paths broken) [].

(** ** Paths *)

(** Impa.py:857-889; [seen] is [self.visited_nodes], the second result the returned path *)
Fixpoint find_paths (fuel : nat) (g : graph) (node : nat) (visited path seen : list nat)
  : option (list nat * option (list nat)) :=
  match fuel with
  | 0 => None
  | S fuel =>
      let visited := node :: visited in
      let path := path ++ [node] in
      io <- g_find g node ;;
      match snd io with
      | [] => Some (seen ++ [node], Some path)
      | outs =>
          (fix try (ns seen : list nat) : option (list nat * option (list nat)) :=
             match ns with
             | [] => Some (seen, None)
             | v :: ns =>
                 if mem v visited then try ns seen
                 else r <- find_paths fuel g v visited path seen ;;
                      match snd r with
                      | Some p => Some (fst r, Some p)
                      | None => try ns (fst r)
                      end
             end) outs (seen ++ [node])
      end
  end.
(** Impa.py:891-917; every call of [find_paths] goes to a node not yet on the path, so the depth is
    at most the number of nodes *)
Definition get_paths (g : graph) : option (list (list nat)) :=
  ' (_, paths) <- foldM (fun (st : list nat * list (list nat)) (k : nat * (list nat * list nat)) =>
      if mem (fst k) (fst st) then Some st
      else r <- find_paths (length g) g (fst k) [] [] (fst st) ;;
           Some (fst r, match snd r with Some p => snd st ++ [p] | None => snd st end)) g ([], []) ;;
  Some (maximal paths).

(** ** Missing nodes *)

(** Impa.py:810-824: best combination; the variables keep their value of the previous round when no
    cost is below infinity *)
Definition best_combination (cost : nat -> option num) (nodes : list nat) (old : option nat)
  : option (num * option nat) :=
  foldM (fun (st : num * option nat) v =>
    c <- cost v ;; Some (if nlt c (fst st) then (c, Some v) else st)) nodes (PInf, old).
(** Impa.py:793-837 *)
Fixpoint add_missing (fuel : nat) (cm : list (list num)) (missing added : list nat) (cl cr : option nat)
  (tour : list nat) : option (list nat) :=
  if length added =? length missing then Some tour else
  match fuel with
  | 0 => None
  | S fuel =>
      let todo := filter (fun v => negb (mem v added)) missing in
      first <- get tour 0 ;;
      last <- get tour (length tour - 1) ;;
      ' (ml, cl) <- best_combination (fun v => get2 cm v first) todo cl ;;
      ' (mr, cr) <- best_combination (fun v => get2 cm last v) todo cr ;;
      side <- np_argmin [ml; mr] ;;
      if side =? 0 then v <- cl ;; add_missing fuel cm missing (added ++ [v]) cl cr (v :: tour)
      else v <- cr ;; add_missing fuel cm missing (added ++ [v]) cl cr (tour ++ [v])
  end.
Definition add_missing_nodes (cm : list (list num)) (tour missing : list nat) : option (list nat) :=
  add_missing (length missing) cm missing [] None None tour.

(** ** k-opt *)

(** Impa.py:942-947.  The right-hand sides are copied before the assignments; with repeated indices
    the last assignment counts. *)
Definition assign_all (l : list nat) (idx vals : list nat) : option (list nat) :=
  foldM (fun l iv => set l (fst iv) (snd iv)) (combine idx vals) l.
Definition swap_nodes (path idx : list nat) : option (list nat) :=
  let ps := combinations idx 2 in
  i0 <- mapM (fun q => get q 0) ps ;;
  i1 <- mapM (fun q => get q 1) ps ;;
  v1 <- mapM (get path) i1 ;;
  v0 <- mapM (get path) i0 ;;
  path <- assign_all path i0 v1 ;;
  assign_all path i1 v0.
(** Impa.py:919-950 *)
Definition k_opt_paths (path : list nat) (k : nat) : option (list (list nat)) :=
  let n := length path in
  if (k <? 2) || (n <? k + 2) then None
  else mapM (swap_nodes path) (combinations (seq 0 n) k).
(** Impa.py:763-791 *)
Definition perform_k_opt (E : list (nat * nat)) (cost : list num) (tour : list nat) (min_cost : num)
  : option (list nat * num) :=
  foldM (fun (st : list nat * num) k =>
    cands <- k_opt_paths (fst st) k ;;
    _ <- get cands 0 ;;
    foldM (fun (st : list nat * num) cand =>
      c <- tour_cost E cost cand ;;
      Some (if nlt c (snd st) then (cand, c) else st)) cands st) [3; 2] (tour, min_cost).

(** ** Post-processing *)

(** [itertools.permutations] *)
Fixpoint selects {A} (l : list A) : list (A * list A) :=
  match l with
  | [] => []
  | x :: l => (x, l) :: map (fun yr => (fst yr, x :: snd yr)) (selects l)
  end.
Fixpoint permutations (k : nat) (l : list nat) : list (list nat) :=
  match k with
  | 0 => [[]]
  | S k => flat_map (fun xr => map (cons (fst xr)) (permutations k (snd xr))) (selects l)
  end.

(** data of a solved instance *)
Record pp_data := {
  d_n : nat; d_edges : list (nat * nat); d_cost : list num; d_cm : list (list num); d_intr : list num;
  d_selected : list (nat * nat); d_paths : option (list (list nat)); d_kopt : bool }.

(** Impa.py:558-649: the edges left after removing *)
Definition remaining_edges (d : pp_data) : option (list (nat * nat)) :=
  r1 <- removed_degree (d_edges d) (d_intr d) (d_selected d) ;;
  sel <- match d_paths d with
         | None => Some (d_selected d)
         | Some paths =>
             r2 <- removed_subtours (d_edges d) (d_intr d) paths (snd (paths_cleaning r1 paths)) ;;
             Some (filter (fun e => negb (edge_mem e r2)) (d_selected d))
         end ;;
  Some (filter (fun e => negb (edge_mem e r1)) sel).

(** Impa.py:692-707: one way of joining the paths *)
Definition join_paths (d : pp_data) (paths : list (list nat)) (missing : list nat) (perm : list nat)
  : option (list nat * num) :=
  parts <- mapM (get paths) perm ;;
  tour <- (if nonempty missing then add_missing_nodes (d_cm d) (concat parts) missing else Some (concat parts)) ;;
  c <- tour_cost (d_edges d) (d_cost d) tour ;;
  Some (tour, c).

(** Impa.py:540-761 *)
Definition run_post_processing (d : pp_data) : option (list nat * num) :=
  sel <- remaining_edges d ;;
  paths <- get_paths (construct_graph sel) ;;
  let missing := filter (fun v => negb (mem v (concat paths))) (seq 0 (d_n d)) in
  ' (tour, c) <-
    (if 1 <? length paths then
       cands <- mapM (join_paths d paths missing)
                  (filter (fun q => match q with x :: _ => x =? 0 | [] => false end)
                     (permutations (length paths) (seq 0 (length paths)))) ;;
       b <- np_argmin (map snd cands) ;;
       get cands b
     else
       path <- get paths 0 ;;
       tour <- (if nonempty missing then add_missing_nodes (d_cm d) path missing else Some path) ;;
       c <- tour_cost (d_edges d) (d_cost d) tour ;;
       Some (tour, c)) ;;
  ' (tour, c) <- (if d_kopt d then perform_k_opt (d_edges d) (d_cost d) tour c else Some (tour, c)) ;;
  first <- get tour 0 ;;
  Some (tour ++ [first], c).

(** Impa.py:355-438: what a Python caller finds in [tour_impa], [cost_impa], [pp_performed] *)
Record py_tsp_answer := { y_tour : option (list nat); y_cost : num; y_pp : bool }.
Definition py_finish (pp kopt : bool) (n : nat) (cm : list (list num)) (cost : list num) (r : tsp_result)
  : option py_tsp_answer :=
  let o := o_arrays r in
  sel <- pairs_of (firstn (to_edges_size o) (to_edges o)) ;;
  let paths := option_map close_paths (read_paths (to_sizes o) (to_paths o)) in
  match read_tour (to_tour o) with
  | None =>
      if pp then
        ' (t, c) <- run_post_processing
          {| d_n := n; d_edges := py_edges cm; d_cost := cost; d_cm := cm;
             d_intr := py_intrinsic r cost; d_selected := sel; d_paths := paths; d_kopt := kopt |} ;;
        Some {| y_tour := Some t; y_cost := c; y_pp := true |}
      else Some {| y_tour := None; y_cost := o_cost r; y_pp := false |}
  | Some t => Some {| y_tour := Some t; y_cost := o_cost r; y_pp := false |}
  end.
