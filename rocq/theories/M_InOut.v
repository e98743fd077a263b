(** * Data exchanged between the Python front end and the C++ library.

    A pointer argument is the list of the elements of the buffer behind it; reading or writing
    beyond its end is a failure. *)
From Verif Require Import Num Arr.
Local Open Scope nat_scope.

(** [copy(p + k*i, p + k*(i+1), m[i].begin())] for [i = 0 .. n-1], where [m[i]] has [k] elements.
    input_output.hpp:98-100,107 (KC-MWM), 247-255,261 (TSP), 400-410 (K-SAT). *)
Definition read_rows {A} (dflt : A) (n k : nat) (buf : list A) : option (list (list A)) :=
  mapM (fun i => s <- slice buf (k * i) (k * (i + 1)) ;; copy_into s (repeat dflt k)) (seq 0 n).

(** input_output.hpp:97,101-102: row [d] holds [sizes[d]] elements and starts at [maxsz*d] *)
Definition read_padded (n maxsz : nat) (sizes buf : list nat) : option (list (list nat)) :=
  mapM (fun d => sz <- get sizes d ;;
                 s <- slice buf (maxsz * d) (sz + maxsz * d) ;;
                 copy_into s (repeat 0 sz)) (seq 0 n).

(** input_output.hpp:91-108 [InputsKcMwm::process_inputs] *)
Record kc_inputs := {
  kc_reward_team : list num;
  kc_team2knapsack : list (list num);
  kc_weights : list (list nat);
  kc_reward_project : list (list num);
  kc_max_state : list nat;
  kc_nonzero : list (list nat) }.
Definition kc_process_inputs (T D P maxsz : nat) (reward_team transition : list num)
  (weights sizes nonzero : list nat) (reward_project : list num) (max_state : list nat)
  : option kc_inputs :=
  rt <- slice reward_team 0 T ;;
  ms <- slice max_state 0 D ;;
  nz <- read_padded D maxsz sizes nonzero ;;
  t2k <- read_rows n0 D T transition ;;
  w <- read_rows 0 D T weights ;;
  rp <- read_rows n0 P T reward_project ;;
  Some {| kc_reward_team := rt; kc_team2knapsack := t2k; kc_weights := w;
          kc_reward_project := rp; kc_max_state := ms; kc_nonzero := nz |}.

(** input_output.hpp:138-145 [OutputsKcMwm::intrinsic_out_mwm_update]; the C++ index is
    [p + t + p*(T-1)] on [int]; the body only runs when [T >= 1]. *)
Definition intrinsic_out_mwm (T : nat) (oric2eq project2eq reward_project : list (list num))
  (out : list num) : option (list num) :=
  for_up 0 (length reward_project) out (fun out p =>
    row <- get reward_project p ;;
    for_up 0 (length row) out (fun out t =>
      a <- get2 oric2eq p t ;;
      b <- get2 project2eq p t ;;
      c <- get row t ;;
      set out (p + t + p * (T - 1)) (nadd (nadd a b) c))).

(** input_output.hpp:155-162 [OutputsKcMwm::extrinsic_output_team_update] *)
Definition extrinsic_output_team (extr : list (list num)) (oric2team out : list num)
  : option (list num) :=
  out <- copy_into oric2team out ;;
  foldM (fun out row => transform2 nadd row out out) extr out.

(** input_output.hpp:242-263 [InputsTsp::process_inputs] *)
Record tsp_inputs := {
  tsp_edges : list (nat * nat);
  tsp_cost_edge : list num;
  tsp_cost_matrix : list (list num);
  tsp_degree_cost : list (list num);
  tsp_edge2degree : list (list num) }.
Definition pair_of (r : list nat) : option (nat * nat) :=
  a <- get r 0 ;; b <- get r 1 ;; Some (a, b).
Definition tsp_process_inputs (n e : nat) (edges : list nat)
  (cost_edge cost_matrix edge2degree degree_cost : list num) : option tsp_inputs :=
  ce <- slice cost_edge 0 e ;;
  rows <- read_rows 0 e 2 edges ;;
  es <- mapM pair_of rows ;;
  m <- read_rows n0 e n edge2degree ;;
  dc <- read_rows n0 e n degree_cost ;;
  cm <- read_rows n0 n n cost_matrix ;;
  Some {| tsp_edges := es; tsp_cost_edge := ce; tsp_cost_matrix := cm;
          tsp_degree_cost := dc; tsp_edge2degree := m |}.

(** input_output.hpp:272-276: [accumulate(row, zero_value)] adds from the left *)
Definition accumulate (row : list num) : num := fold_left nadd row n0.
Definition extrinsic_relaxed (m : list (list num)) (out : list num) : option (list num) :=
  for_up 0 (length m) out (fun out e => r <- get m e ;; set out e (accumulate r)).
(** input_output.hpp:286-295 *)
Definition extrinsic_augmented (m sub : list (list num)) (out : list num) : option (list num) :=
  out <- extrinsic_relaxed m out ;;
  foldM (fun out row => transform2 nadd row out out) sub out.
(** input_output.hpp:304-306: [transform(extrinsic, cost, intrinsic.begin(), plus)] *)
Definition intrinsic_output (extr cost out : list num) : option (list num) :=
  transform2 nadd extr cost out.

(** input_output.hpp:390-428 [InputsKsat::process_inputs] *)
Record ksat_inputs := {
  ks_used : list nat;
  ks_metrics : list num;
  ks_conx : list (list nat);
  ks_type : list (list Z);
  ks_var2clause : list (list num);
  ks_varconx : list (list nat) }.
(** input_output.hpp:412-427: connections of the used variables, read one after the other *)
Definition read_varconx (nv : nat) (used sizes buf : list nat) : option (list (list nat)) :=
  ' (rows, _) <- for_up 0 nv ([], 0) (fun st j =>
    let '(rows, old) := st in
    if existsb (Nat.eqb j) used then
      sz <- get sizes j ;;
      s <- slice buf old (old + sz) ;;
      row <- copy_into s (repeat 0 sz) ;;
      Some (rows ++ [row], old + sz)
    else Some (rows ++ [[]], old)) ;;
  Some rows.
Definition ksat_process_inputs (nv nc k nused : nat) (used varconx sizes conx : list nat)
  (types : list Z) (metrics var2clause : list num) : option ksat_inputs :=
  u <- slice used 0 nused ;;
  im <- slice metrics 0 nv ;;
  sz <- slice sizes 0 nv ;;
  c <- read_rows 0 nc k conx ;;
  ty <- read_rows 0%Z nc k types ;;
  m <- read_rows n0 nc nv var2clause ;;
  vc <- read_varconx nv u sz varconx ;;
  Some {| ks_used := u; ks_metrics := im; ks_conx := c; ks_type := ty;
          ks_var2clause := m; ks_varconx := vc |}.

(** input_output.hpp:437-445 [OutputsKsat::update_extrinsic]; note the [+=] *)
Definition ksat_update_extrinsic (nv nc : nat) (m : list (list num)) (out : list num)
  : option (list num) :=
  for_up 0 nv out (fun out i =>
    for_up 0 nc out (fun out j =>
      o <- get out i ;; x <- get2 m j i ;; set out i (nadd o x))).

(** ** Python side *)

(** Impa.py:1467-1471: participating teams of each department *)
Definition py_nonzero (weights : list (list nat)) : list (list nat) :=
  map (fun row => filter (fun i => negb (nth i row 0 =? 0)) (seq 0 (length row))) weights.
(** Impa.py:1490-1498: padding to the longest row; [max([])] raises for no department *)
Definition py_pad (nz : list (list nat)) : list (list nat) :=
  let m := list_max (map (@length nat) nz) in
  map (fun r => r ++ repeat 0 (m - length r)) nz.
(** Impa.py:1461-1464: initial messages from teams to departments *)
Definition py_team_messages (weights : list (list nat)) (reward : list num) : list (list num) :=
  map (fun row => map (fun j => if negb (nth j row 0 =? 0) then nth j reward n0 else n0)
                      (seq 0 (length row))) weights.

(** Impa.py:392-394: pairs of consecutive elements of the first [size] *)
Fixpoint pairs_of (l : list nat) : option (list (nat * nat)) :=
  match l with
  | [] => Some []
  | [_] => None
  | a :: b :: l => r <- pairs_of l ;; Some ((a, b) :: r)
  end.
Definition py_selected_edges (size : nat) (buf : list nat) : option (list (nat * nat)) :=
  pairs_of (firstn size buf).

(** Impa.py:397-412,433-434: [islice(flat, sum(sz[:i]), sum(sz[:i+1]))]; the first node is
    repeated at the end *)
Definition py_subtours (sizes buf : list nat) : option (list (list nat)) :=
  let sz := filter (fun x => negb (x =? 0)) sizes in
  if length sz =? 0 then None else
  let flat := firstn (list_sum sz) buf in
  let paths := map (fun i => let lo := list_sum (firstn i sz) in
                             let hi := list_sum (firstn (i + 1) sz) in
                             firstn (hi - lo) (skipn lo flat)) (seq 0 (length sz)) in
  Some (map (fun p => p ++ firstn 1 p) (filter (fun p => negb (length p =? 0)) paths)).

(** Impa.py:418-422 *)
Definition py_tour (buf : list nat) : option (list nat) :=
  if forallb (fun x => x =? 0) buf then None else Some buf.

(** ** C++ side: graphical_model.hpp:419,426-441 [GraphicalModelTsp::process_ouputs] *)
Definition flat_edges (es : list (nat * nat)) : list nat := flat_map (fun e => [fst e; snd e]) es.
Record tsp_outputs := {
  to_tour : list nat; to_edges : list nat; to_edges_size : nat;
  to_paths : list nat; to_sizes : list nat }.
Definition write_outputs (tour : list nat) (selected : list (nat * nat)) (paths : list (list nat))
  (sizes : list nat) (btour bedges bpaths bsizes : list nat) : option tsp_outputs :=
  t <- copy_into tour btour ;;
  e <- copy_into (flat_edges selected) bedges ;;
  p <- copy_into (concat paths) bpaths ;;
  s <- copy_into sizes bsizes ;;
  Some {| to_tour := t; to_edges := e; to_edges_size := length (flat_edges selected);
          to_paths := p; to_sizes := s |}.
