(** * Whole runs of the TSP solver (C++): [GraphicalModelTsp] and [WrapperTsp]. *)
From Verif Require Import Num Arr M_Tsp_Constraints M_Equality M_Filter M_InOut M_Runs M_Tsp_Loops.
Local Open Scope nat_scope.

(** Parameters of a run: constructor arguments (graphical_model.hpp:248-262), the data read by
    [initialize] ([p_in]), and the iteration order of the hash map ([p_ord], see M_Tsp_Loops). *)
Record tsp_params := {
  p_n : nat;            (* numNodes_ *)
  p_e : nat;            (* numEdgeVariables_ *)
  p_iters : nat;        (* numIterations_ *)
  p_aug : bool;         (* augmentationFlag_ *)
  p_reset : bool;       (* resetFlag_ *)
  p_filt : bool;        (* filteringFlag_ *)
  p_alpha : num;        (* alpha_ *)
  p_thr : num;          (* threshold_ *)
  p_max_count : Z;      (* maxCount_ *)
  p_in : tsp_inputs;
  p_ord : list nat -> list nat }.

(** Messages.  [m_e2d] is [modelInputs_.EdgeEc2DegreeConstraintM]; the [..._old] arrays live in the
    constraint objects (update_degree_constraint.hpp:21, subtour_elimination_constraint.hpp:26). *)
Record tsp_msgs := {
  m_e2d : list (list num);
  m_deg_dummy : list (list num);
  m_deg_old : list (list num);
  m_deg : list (list num);
  m_sub_dummy : list (list num);
  m_sub_old : list (list num);
  m_sub : list (list num) }.
(** Outputs and hard decision: [outputs.ExtrinsicOutputEdgeEc], [outputs.IntrinsicOutputEdgeEc],
    [selectedEdges_], [costImpa_] *)
Record tsp_sol := {
  r_extr : list num;
  r_intr : list num;
  r_selected : list (nat * nat);
  r_cost : num }.
(** Result of the subtour analysis: [delta_S_indices_list], [tourImpa_], [tourImpaFlag_],
    [subtourConstraintsSatisfiedFlag], [subtourPaths_], [closedPathsSize_],
    [noConsClosedLoopsCount_], [noConsClosedLoopsCountExcFlag_] *)
Record tsp_an := {
  a_deltas : list (list nat);
  a_tour : list nat;
  a_tour_flag : bool;
  a_satisfied : bool;
  a_paths : list (list nat);
  a_sizes : list nat;
  a_nocons : nat;
  a_nocons_flag : bool }.
(** History of selections: [selected_edges_old_], [selected_edges_old_old_], [noImprovSolCount_],
    [solOscCount_], their flags, [numAugmentations_] *)
Record tsp_cnt := {
  c_old : list (nat * nat);
  c_oldold : list (nat * nat);
  c_noimp : nat;
  c_osc : nat;
  c_noimp_flag : bool;
  c_osc_flag : bool;
  c_num_aug : nat }.
Record tsp_state := { t_msgs : tsp_msgs; t_sol : tsp_sol; t_an : tsp_an; t_cnt : tsp_cnt }.

(** graphical_model.hpp:263-282, update_degree_constraint.hpp:50-54, input_output.hpp:222-228 *)
Definition tsp_init (p : tsp_params) : tsp_state :=
  {| t_msgs := {| m_e2d := tsp_edge2degree (p_in p);
                  m_deg_dummy := zeros (p_e p) (p_n p); m_deg_old := zeros (p_e p) (p_n p);
                  m_deg := zeros (p_e p) (p_n p);
                  m_sub_dummy := []; m_sub_old := []; m_sub := [] |};
     t_sol := {| r_extr := repeat n0 (p_e p); r_intr := repeat n0 (p_e p); r_selected := [];
                 r_cost := n0 |};
     t_an := {| a_deltas := []; a_tour := []; a_tour_flag := false; a_satisfied := false;
                a_paths := []; a_sizes := []; a_nocons := 0; a_nocons_flag := false |};
     t_cnt := {| c_old := []; c_oldold := []; c_noimp := 0; c_osc := 0; c_noimp_flag := false;
                 c_osc_flag := false; c_num_aug := 0 |} |}.

(** ** Hard decision *)

(** graphical_model.hpp:557-563: [value > threshold_ ? 0 : 1], so NaN is selected *)
Definition hard_decision (thr : num) (intr : list num) : list bool :=
  map (fun v => if ngt v thr then false else true) intr.
(** graphical_model.hpp:566-570.  [intr] has [num_edges] elements. *)
Definition select_edges (num_edges : nat) (hd : list bool) (edges : list (nat * nat))
  : option (list (nat * nat)) :=
  for_up 0 num_edges [] (fun sel i =>
    h <- get hd i ;;
    if (h : bool) then e <- get edges i ;; Some (sel ++ [e]) else Some sel).
(** graphical_model.hpp:598-604 *)
Definition selection_cost (hd : list bool) (cost : list num) : option num :=
  for_up 0 (length hd) n0 (fun acc i =>
    h <- get hd i ;;
    if (h : bool) then c <- get cost i ;; Some (nadd acc c) else Some acc).

(** ** Subtour analysis *)

Definition mem (u : nat) (l : list nat) : bool := existsb (Nat.eqb u) l.
(** graphical_model.hpp:669-675: edges from a node of the loop to a node outside *)
Definition delta_S (edges : list (nat * nat)) (loop : list nat) : list nat :=
  filter (fun i => let e := nth i edges (0, 0) in mem (fst e) loop && negb (mem (snd e) loop))
         (seq 0 (length edges)).
(** graphical_model.hpp:677-697 *)
Definition add_delta (deltas : list (list nat)) (d : list nat) : list (list nat) :=
  if (length deltas =? 0) && negb (length d =? 0) then deltas ++ [d]
  else if negb (existsb (fun d' => list_eqb d' d) deltas) && negb (length d =? 0)
       then deltas ++ [d] else deltas.

(** graphical_model.hpp:619-700 [subtour_elimination_constraints_analysis] *)
Definition analyse (p : tsp_params) (selected : list (nat * nat)) (a : tsp_an) : option tsp_an :=
  loops <- get_closed_loops (p_ord p) selected ;;
  match loops with
  | [] =>
      Some {| a_deltas := a_deltas a; a_tour := a_tour a; a_tour_flag := a_tour_flag a;
              a_satisfied := a_satisfied a; a_paths := loops; a_sizes := [];
              a_nocons := a_nocons a + 1;
              a_nocons_flag := a_nocons_flag a || (p_max_count p <? Z.of_nat (a_nocons a + 1))%Z |}
  | first :: rest =>
      if (length loops =? 1) && (length first =? p_n p) then
        head <- get first 0 ;;
        Some {| a_deltas := a_deltas a; a_tour := first ++ [head]; a_tour_flag := true;
                a_satisfied := true; a_paths := loops; a_sizes := [];
                a_nocons := a_nocons a; a_nocons_flag := a_nocons_flag a |}
      else
        Some {| a_deltas := fold_left (fun ds loop => add_delta ds (delta_S (tsp_edges (p_in p)) loop))
                                      loops (a_deltas a);
                a_tour := a_tour a; a_tour_flag := a_tour_flag a; a_satisfied := a_satisfied a;
                a_paths := loops; a_sizes := map (@length nat) loops;
                a_nocons := 0; a_nocons_flag := a_nocons_flag a |}
  end.

(** ** Relaxed model: graphical_model.hpp:316-321 *)
Definition relaxed_step (p : tsp_params) (m : tsp_msgs) (iter : nat) : option tsp_msgs :=
  dummy <- degree_update (p_n p) (p_e p) (tsp_edges (p_in p)) (m_e2d m) (m_deg_dummy m) ;;
  ' (deg, old) <- process_filtering (p_filt p) (p_alpha p) iter (p_e p) dummy (m_deg_old m) (m_deg m) ;;
  e2d <- edge_to_degree_relaxed (p_e p) (tsp_edges (p_in p)) (tsp_degree_cost (p_in p)) deg (m_e2d m) ;;
  Some {| m_e2d := e2d; m_deg_dummy := dummy; m_deg_old := old; m_deg := deg;
          m_sub_dummy := m_sub_dummy m; m_sub_old := m_sub_old m; m_sub := m_sub m |}.

(** graphical_model.hpp:316-335 [iterate_relaxed_graph] *)
Definition iterate_relaxed (p : tsp_params) (st : tsp_state) : option tsp_state :=
  m <- for_up 0 (p_iters p) (t_msgs st) (relaxed_step p) ;;
  extr <- extrinsic_relaxed (m_deg m) (r_extr (t_sol st)) ;;
  intr <- intrinsic_output extr (tsp_cost_edge (p_in p)) (r_intr (t_sol st)) ;;
  let hd := hard_decision (p_thr p) intr in
  sel <- select_edges (p_e p) hd (tsp_edges (p_in p)) ;;
  cost <- selection_cost hd (tsp_cost_edge (p_in p)) ;;
  a <- analyse p sel (t_an st) ;;
  Some {| t_msgs := m;
          t_sol := {| r_extr := extr; r_intr := intr; r_selected := sel; r_cost := cost |};
          t_an := a; t_cnt := t_cnt st |}.

(** ** Augmented model *)

(** graphical_model.hpp:450-457 *)
Definition reset_messages (edges : list (nat * nat)) (cm : list (list num)) (e2d : list (list num))
  : option (list (list num)) :=
  for_up 0 (length edges) e2d (fun e2d i =>
    ' (u, v) <- get edges i ;;
    c <- get2 cm u v ;;
    e2d <- set2 e2d i u c ;;
    set2 e2d i v c).

(** graphical_model.hpp:476-488 *)
Definition augmented_step (p : tsp_params) (deltas : list (list nat)) (m : tsp_msgs) (iter : nat)
  : option tsp_msgs :=
  let E := tsp_edges (p_in p) in
  dummy <- degree_update (p_n p) (p_e p) E (m_e2d m) (m_deg_dummy m) ;;
  ' (deg, old) <- process_filtering (p_filt p) (p_alpha p) iter (p_e p) dummy (m_deg_old m) (m_deg m) ;;
  e2s <- edge_to_subtour (p_e p) deltas (tsp_cost_edge (p_in p)) deg (m_sub m) E ;;
  sdummy <- subtour_update (p_e p) deltas e2s (m_sub_dummy m) ;;
  ' (sub, sold) <- process_filtering (p_filt p) (p_alpha p) iter (length deltas) sdummy
                     (m_sub_old m) (m_sub m) ;;
  e2d <- edge_to_degree_augmented (p_e p) deg sub E (tsp_degree_cost (p_in p)) (m_e2d m) ;;
  Some {| m_e2d := e2d; m_deg_dummy := dummy; m_deg_old := old; m_deg := deg;
          m_sub_dummy := sdummy; m_sub_old := sold; m_sub := sub |}.

Definition edge_eqb (a b : nat * nat) : bool := (fst a =? fst b) && (snd a =? snd b).
Fixpoint edges_eqb (a b : list (nat * nat)) : bool :=
  match a, b with
  | [], [] => true
  | x :: a, y :: b => edge_eqb x y && edges_eqb a b
  | _, _ => false
  end.
Definition nonempty {A} (l : list A) : bool := negb (length l =? 0).

(** graphical_model.hpp:513-545: counters and remembered selections *)
Definition update_counts (max_count : Z) (sel : list (nat * nat)) (c : tsp_cnt) : tsp_cnt :=
  let '(noimp, noimp_flag) :=
    if nonempty (c_old c) then
      if edges_eqb sel (c_old c)
      then (c_noimp c + 1, c_noimp_flag c || (max_count <? Z.of_nat (c_noimp c + 1))%Z)
      else (0, c_noimp_flag c)
    else (c_noimp c, c_noimp_flag c) in
  let '(osc, osc_flag) :=
    if nonempty (c_oldold c) then
      if edges_eqb sel (c_oldold c) && negb (edges_eqb (c_oldold c) (c_old c))
      then (c_osc c + 1, c_osc_flag c || (max_count <? Z.of_nat (c_osc c + 1))%Z)
      else (0, c_osc_flag c)
    else (c_osc c, c_osc_flag c) in
  {| c_old := sel; c_oldold := if nonempty (c_old c) then c_old c else c_oldold c;
     c_noimp := noimp; c_osc := osc; c_noimp_flag := noimp_flag; c_osc_flag := osc_flag;
     c_num_aug := c_num_aug c |}.

(** How a call ends: it returns, the process is terminated by [exit(0)], or (bounded execution
    only) it is still running. *)
Inductive outcome := Returned (st : tsp_state) | Exited | Running (st : tsp_state).

(** graphical_model.hpp:448-549 [iterate_augmented_graph]; [exit(0)] at 501-504 when a message is
    NaN *)
Definition iterate_augmented (p : tsp_params) (st : tsp_state) : option outcome :=
  let E := tsp_edges (p_in p) in
  let m := t_msgs st in
  let deltas := a_deltas (t_an st) in
  e2d <- (if p_reset p then reset_messages E (tsp_cost_matrix (p_in p)) (m_e2d m)
          else Some (m_e2d m)) ;;
  let m := {| m_e2d := e2d; m_deg_dummy := m_deg_dummy m; m_deg_old := m_deg_old m; m_deg := m_deg m;
              m_sub_dummy := m_sub_dummy m;
              m_sub_old := m_sub_old m ++ zeros (length deltas) (p_e p); m_sub := m_sub m |} in
  m <- for_up 0 (p_iters p) m (augmented_step p deltas) ;;
  if existsb (existsb is_nan) (m_e2d m) then Some Exited else
  extr <- extrinsic_augmented (m_deg m) (m_sub m) (r_extr (t_sol st)) ;;
  intr <- intrinsic_output extr (tsp_cost_edge (p_in p)) (r_intr (t_sol st)) ;;
  let hd := hard_decision (p_thr p) intr in
  sel <- select_edges (p_e p) hd E ;;
  cost <- selection_cost hd (tsp_cost_edge (p_in p)) ;;
  let c := update_counts (p_max_count p) sel (t_cnt st) in
  a <- analyse p sel (t_an st) ;;
  Some (Returned
    {| t_msgs := m;
       t_sol := {| r_extr := extr; r_intr := intr; r_selected := sel; r_cost := cost |};
       t_an := a;
       t_cnt := {| c_old := c_old c; c_oldold := c_oldold c; c_noimp := c_noimp c; c_osc := c_osc c;
                   c_noimp_flag := c_noimp_flag c; c_osc_flag := c_osc_flag c;
                   c_num_aug := c_num_aug (t_cnt st) + 1 |} |}).

(** graphical_model.hpp:349-353 and 376-382: rows for constraints without messages yet.
    At 376 the subtraction is on [size_t]; it does not underflow because constraints are never
    removed. *)
Definition extend_sub (k num_edges : nat) (m : tsp_msgs) : tsp_msgs :=
  let sub := m_sub m ++ zeros k num_edges in
  {| m_e2d := m_e2d m; m_deg_dummy := m_deg_dummy m; m_deg_old := m_deg_old m; m_deg := m_deg m;
     m_sub_dummy := sub; m_sub_old := m_sub_old m; m_sub := sub |}.
Definition set_msgs (st : tsp_state) (m : tsp_msgs) : tsp_state :=
  {| t_msgs := m; t_sol := t_sol st; t_an := t_an st; t_cnt := t_cnt st |}.

(** graphical_model.hpp:356-383: the [while] loop, at most [fuel] rounds *)
Fixpoint augmentation_loop (fuel : nat) (p : tsp_params) (max_augm : Z) (st : tsp_state)
  : option outcome :=
  if negb (a_satisfied (t_an st)) && p_aug p && negb (a_tour_flag (t_an st)) then
    if a_nocons_flag (t_an st) || c_noimp_flag (t_cnt st) || c_osc_flag (t_cnt st)
    then Some (Returned st)
    else if neqb (r_cost (t_sol st)) n0 then Some Exited
    else match fuel with
         | O => Some (Running st)
         | S fuel =>
             o <- iterate_augmented p st ;;
             match o with
             | Returned st =>
                 if (Z.of_nat (c_num_aug (t_cnt st)) =? max_augm)%Z then Some (Returned st) else
                 let have := length (m_sub (t_msgs st)) in
                 let want := length (a_deltas (t_an st)) in
                 let st := if have =? want then st
                           else set_msgs st (extend_sub (want - have) (p_e p) (t_msgs st)) in
                 augmentation_loop fuel p max_augm st
             | o => Some o
             end
         end
  else Some (Returned st).

(** graphical_model.hpp:347-384 [perform_augmentation] *)
Definition perform_augmentation (fuel : nat) (p : tsp_params) (max_augm : Z) (st : tsp_state)
  : option outcome :=
  let k := length (a_deltas (t_an st)) in
  let st := if 0 <? k then set_msgs st (extend_sub k (p_e p) (t_msgs st)) else st in
  augmentation_loop fuel p max_augm st.

(** Wrapper.cpp:89-105 without the copying of arguments and results *)
Definition tsp_solve (fuel : nat) (p : tsp_params) (max_augm : Z) : option outcome :=
  st <- iterate_relaxed p (tsp_init p) ;;
  if negb (a_satisfied (t_an st)) && p_aug p then perform_augmentation fuel p max_augm st
  else Some (Returned st).

(** graphical_model.hpp:411-442 [process_ouputs]: numbers, flags and arrays handed back *)
Record tsp_result := {
  o_extr : list num;
  o_num_aug : nat;
  o_num_constraints : nat;
  o_cost : num;
  o_noimp_flag : bool;
  o_nocons_flag : bool;
  o_osc_flag : bool;
  o_arrays : tsp_outputs }.
Definition process_outputs (p : tsp_params) (st : tsp_state) (bextr : list num)
  (btour bedges bpaths bsizes : list nat) : option tsp_result :=
  x <- slice (r_extr (t_sol st)) 0 (p_e p) ;;
  x <- copy_into x bextr ;;
  o <- write_outputs (a_tour (t_an st)) (r_selected (t_sol st)) (a_paths (t_an st)) (a_sizes (t_an st))
         btour bedges bpaths bsizes ;;
  Some {| o_extr := x; o_num_aug := c_num_aug (t_cnt st);
          o_num_constraints := length (m_sub (t_msgs st)); o_cost := r_cost (t_sol st);
          o_noimp_flag := c_noimp_flag (t_cnt st); o_nocons_flag := a_nocons_flag (t_an st);
          o_osc_flag := c_osc_flag (t_cnt st); o_arrays := o |}.
