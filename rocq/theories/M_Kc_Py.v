(** * Python front end of KC-MWM: src/impa/Impa.py, class ImpaKcMwm (1137-2232). *)
From Verif Require Import Num Arr M_Tsp_Run M_Ksat_Py M_InOut M_Runs M_Tsp_Post.
Local Open Scope nat_scope.

(** ** Constants: src/impa/initializationModule.py *)

(** initializationModule.py:10-11 *)
Definition fighters_count : list nat := [1; 1; 2; 2; 2].
Definition weasels_count : list nat := [0; 1; 0; 1; 2].
(** initializationModule.py:13-14,17 *)
Definition F_u : list Z := [0; 0; 0; 4; 0; 0; 4; 0; 0; 1; 1]%Z.
Definition W_u : list Z := [2; 2; 2; 0; 2; 2; 0; 1; 1; 0; 0]%Z.
Definition K_1 : Z := 10%Z.
(** initializationModule.py:19-33, with [rho = 1] (line 16) *)
Definition distance_metric : list (list Z) :=
  [[0; 0; 0; 0; 1; 1; 1; 2; 2; 2; 2];
   [0; 0; 0; 0; 1; 1; 1; 2; 2; 2; 2];
   [0; 0; 0; 0; 1; 1; 1; 2; 2; 2; 2];
   [0; 0; 0; 0; 1; 1; 1; 2; 2; 2; 2];
   [1; 1; 1; 1; 0; 0; 0; 2; 2; 3; 3];
   [1; 1; 1; 1; 0; 0; 0; 2; 2; 3; 3];
   [1; 1; 1; 1; 0; 0; 0; 2; 2; 3; 3];
   [2; 2; 2; 2; 2; 2; 2; 2; 2; 2; 2];
   [2; 2; 2; 2; 2; 2; 2; 2; 2; 2; 2];
   [2; 2; 2; 2; 3; 3; 2; 2; 2; 2; 2];
   [2; 2; 2; 2; 3; 3; 2; 2; 2; 2; 2]]%Z.
(** initializationModule.py:40-187; 0 is "CV", 1 is "RR" *)
Definition distance_metric_rendezvouz : list (list nat) :=
  [[0; 0; 0; 0; 1; 1; 1; 0; 0; 0; 0];
   [0; 0; 0; 0; 1; 1; 1; 0; 0; 0; 0];
   [0; 0; 0; 0; 1; 1; 1; 0; 0; 0; 0];
   [0; 0; 0; 0; 1; 1; 1; 0; 0; 0; 0];
   [0; 0; 0; 0; 1; 1; 1; 1; 1; 1; 1];
   [0; 0; 0; 0; 1; 1; 1; 1; 1; 1; 1];
   [0; 0; 0; 0; 1; 1; 1; 1; 1; 1; 1];
   [0; 0; 0; 0; 1; 1; 1; 1; 1; 0; 0];
   [0; 0; 0; 0; 1; 1; 1; 1; 1; 0; 0];
   [0; 0; 0; 0; 1; 1; 1; 0; 0; 0; 0];
   [0; 0; 0; 0; 1; 1; 1; 0; 0; 0; 0]].

(** ** prune_teams: Impa.py:1241-1275 *)

(** [itertools.combinations(l, 2)] *)
Fixpoint pairs_in {A} (l : list A) : list (A * A) :=
  match l with [] => [] | a :: l => map (pair a) l ++ pairs_in l end.
(** 1245: departments are numbered from 1 *)
Definition units (n : nat) : list nat := seq 1 n.
(** 1253-1272: what one combination adds to [list_pruning].  [r_1 > r_2] compares
    [exp(-F_u[a]) * exp(-W_u[b])] with [exp(-F_u[b]) * exp(-W_u[a])]; the model compares the
    exponents.  For the constants above equal exponents come from equal factors, so rounding of
    [math.exp] does not matter. *)
Definition prune_pair (c : nat * nat) : option (list (nat * nat)) :=
  let '(a, b) := c in
  fa <- get F_u (a - 1) ;; fb <- get F_u (b - 1) ;;
  wa <- get W_u (a - 1) ;; wb <- get W_u (b - 1) ;;
  dba <- get2 distance_metric (b - 1) (a - 1) ;; dab <- get2 distance_metric (a - 1) (b - 1) ;;
  rba <- get2 distance_metric_rendezvouz (b - 1) (a - 1) ;;
  rab <- get2 distance_metric_rendezvouz (a - 1) (b - 1) ;;
  let e1 := (fa + wb)%Z in
  let e2 := (fb + wa)%Z in
  Some (if (e1 <? e2)%Z && (dba =? dab)%Z && (rba =? rab) then [(b, a)]
        else if (e2 <? e1)%Z && (dba =? dab)%Z && (rba =? rab) then [(a, b)]
        else if (e2 =? e1)%Z && (rba =? rab) then [(b, a)]
        else []).
(** 1247 (product order), 1275 *)
Definition prune_teams (n : nat) : option (list (nat * nat)) :=
  pruned <- mapM prune_pair (pairs_in (units n)) ;;
  Some (filter (fun x => negb (edge_mem x (concat pruned))) (list_prod (units n) (units n))).

(** ** team_reward_generation: Impa.py:1277-1428 *)

Record gen := { gen_reward : list Z; gen_weights : list (list nat); gen_types : list (list nat) }.
(** [l.append(x); l.extend([x for i in range(0, size - 1)])]: [append] is unconditional *)
Definition copies {A} (x : A) (size : nat) : list A := x :: repeat x (size - 1).
Definition push {A} (m : list (list A)) (d : nat) (x : A) (size : nat) : option (list (list A)) :=
  r <- get m (d - 1) ;; set m (d - 1) (r ++ copies x size).

(** 1308-1392: size of the block of teams of one type, and the departments (with the weight) that
    get entries.  [math.floor(x / k)] is division of naturals; [math.floor(min(x / 2, y))] is the
    minimum of the floors.  Simplification: for a type other than 1..5 the code reuses the
    [team_size] of the previous round or raises; the model fails. *)
Definition team_case (caps : list nat) (u v type : nat) : option (nat * list (nat * nat)) :=
  nu <- get caps (u - 1) ;; nv <- get caps (v - 1) ;;
  f <- get fighters_count (type - 1) ;; w <- get weasels_count (type - 1) ;;
  match type with
  | 1 => Some (if u =? v then (nu, [(u, f)]) else (0, []))
  | 2 => Some (if u =? v then (nu / 2, [(u, f + w)]) else (Nat.min nu nv, [(u, f); (v, w)]))
  | 3 => Some (if u =? v then (nu / 2, [(u, f)]) else (0, []))
  | 4 => Some (if u =? v then (nu / 3, [(u, f + w)]) else (Nat.min (nu / 2) nv, [(u, f); (v, w)]))
  | 5 => Some (if u =? v then (nu / 4, [(u, f + w)]) else (Nat.min (nu / 2) (nv / 2), [(u, f); (v, w)]))
  | _ => None
  end.
(** 1317, 1329, 1342, ... *)
Definition team_reward (u v type : nat) : option Z :=
  d <- get2 distance_metric (v - 1) (u - 1) ;; f <- get F_u (u - 1) ;; w <- get W_u (v - 1) ;;
  Some (d + f - K_1 + (if ((type =? 1) || (type =? 3))%nat then 0 else w))%Z.
(** entries for one department: weight and type *)
Definition place (size type : nat) (g : gen) (dw : nat * nat) : option gen :=
  ws <- push (gen_weights g) (fst dw) (snd dw) size ;;
  ts <- push (gen_types g) (fst dw) type size ;;
  Some {| gen_reward := gen_reward g; gen_weights := ws; gen_types := ts |}.
(** 1306-1402: one type of one combination *)
Definition gen_type (caps : list nat) (u v : nat) (st : gen * list nat) (type : nat) : option (gen * list nat) :=
  let '(g, sizes) := st in
  ' (size, placed) <- team_case caps u v type ;;
  g <- foldM (place size type) placed g ;;
  if size =? 0 then Some (g, sizes ++ [size])
  else
    r <- team_reward u v type ;;
    let g := {| gen_reward := gen_reward g ++ copies r size; gen_weights := gen_weights g; gen_types := gen_types g |} in
    g <- foldM (place size type)
           (map (fun d => (d, 0)) (filter (fun d => negb (d =? u) && negb (d =? v)) (units (length caps)))) g ;;
    Some (g, sizes ++ [size]).
(** 1301-1405: all combinations, with the number of teams of each *)
Definition gen_combination (caps types : list nat) (st : gen * list nat) (c : nat * nat) : option (gen * list nat) :=
  let '(g, sums) := st in
  ' (g, sizes) <- foldM (gen_type caps (fst c) (snd c)) types (g, []) ;;
  Some (g, sums ++ [list_sum sizes]).
Definition generate (caps types : list nat) (combos : list (nat * nat)) : option (gen * list nat) :=
  foldM (gen_combination caps types) combos
    ({| gen_reward := []; gen_weights := repeat [] (length caps); gen_types := repeat [] (length caps) |}, []).
(** 1412-1419 *)
Definition last_index (sums : list nat) : list Z :=
  map (fun i => (Z.of_nat (list_sum (firstn i sums) + nth i sums 0)%nat - 1)%Z) (seq 0 (length sums)).

(** The data kept in the object after initialize, 1194-1239. *)
Record kc_obj := {
  o_caps : list nat;
  o_combos : list (nat * nat);
  o_weights : list (list nat);
  o_types : list nat;
  o_last : list Z;
  o_teams : nat }.
(** initialize, 1154-1239, the part that does not depend on the rewards ([types] is
    [input_load[1]], [caps] is [input_load[0]]) *)
Definition kc_initialize (caps types : list nat) : option kc_obj :=
  combos <- prune_teams (length caps) ;;
  ' (g, sums) <- generate caps types combos ;;
  ty <- get (gen_types g) 0 ;;
  Some {| o_caps := caps; o_combos := combos; o_weights := gen_weights g; o_types := ty;
          o_last := last_index sums; o_teams := length (gen_reward g) |}.

(** ** pre_analysis: Impa.py:1567-1588, check_match: 1590-1629

    [valid_match] and the metric are discarded by the caller (1576) and not modelled. *)

(** 1613-1614: the two masked assignments, in this order *)
Definition kc_decide (thr v : num) : num :=
  let p := if ngt v thr then n0 else v in
  if nlt p thr then n1 else p.
(** 1579: [np.where(p_mwm == 1)], row-major pairs (project, team) *)
Definition matching (thr : num) (A : list (list num)) : list (nat * nat) :=
  filter (fun pt => neqb (kc_decide thr (nth (snd pt) (nth (fst pt) A []) NaN)) n1) (positions A).
(** 1580-1581: [np.unique] of the teams, in increasing order; [T] is the number of teams *)
Definition selected_teams (T : nat) (m : list (nat * nat)) : list nat :=
  filter (fun t => mem t (map snd m)) (seq 0 T).

(** ** pre_processing_analysis: Impa.py:1651-1804 (what is only printed is not modelled) *)

(** 1713: [next(x[0] for x in enumerate(last_index) if x[1] >= index)] *)
Fixpoint location (last : list Z) (t : nat) : option nat :=
  match last with
  | [] => None
  | z :: last => if (Z.of_nat t <=? z)%Z then Some 0 else i <- location last t ;; Some (S i)
  end.
(** 1706-1711 and 2140-2143: add the weights of one team *)
Definition add_weights (D : nat) (W : list (list nat)) (tw : list Z) (t : nat) : option (list Z) :=
  for_up 0 D tw (fun tw j =>
    w <- get2 W j t ;;
    if w =? 0 then Some tw else x <- get tw j ;; set tw j (x + Z.of_nat w)%Z).
(** departments over capacity, 1730-1734, 1880, 1995, 2177 *)
Definition exceeding (caps : list nat) (w : list Z) : list nat :=
  filter (fun d => (Z.of_nat (nth d caps 0%nat) <? nth d w 0)%Z) (seq 0 (length w)).
(** 1762-1780: state = visited pairs (first use of every team), reused teams, entries *)
Definition reuse_step (st : list (nat * nat) * list nat * list ((nat * nat) * (nat * nat))) (pt : nat * nat)
  : list (nat * nat) * list nat * list ((nat * nat) * (nat * nat)) :=
  let '(visited, reused, entries) := st in
  match find (fun c => snd c =? snd pt) visited with
  | None => (visited ++ [pt], reused, entries)
  | Some c => (visited, reused ++ [snd pt], entries ++ [(pt, c)])
  end.

Record kc_pre := {
  p_pairs : list (nat * nat);
  p_sel : list nat;
  p_weights : list Z;
  p_locs : list nat;
  p_exceeded : bool;
  p_reused : list nat;
  p_entries : list ((nat * nat) * (nat * nat)) }.
(** [pre_analysis] followed by [pre_processing_analysis]; [ic_violated_flag] is
    "[p_reused] is not empty" *)
Definition kc_pre_analysis (o : kc_obj) (thr : num) (A : list (list num)) : option kc_pre :=
  let D := length (o_caps o) in
  let pairs := matching thr A in
  let sel := selected_teams (o_teams o) pairs in
  tw <- foldM (add_weights D (o_weights o)) sel (repeat 0%Z D) ;;
  _ <- mapM (get (o_types o)) sel ;;
  locs <- mapM (location (o_last o)) sel ;;
  _ <- mapM (get (o_combos o)) locs ;;
  let '(_, reused, entries) := fold_left reuse_step pairs ([], [], []) in
  Some {| p_pairs := pairs; p_sel := sel; p_weights := tw; p_locs := locs;
          p_exceeded := nonempty (exceeding (o_caps o) tw); p_reused := reused; p_entries := entries |}.

(** ** Post-processing *)

(** 1848-1858 and 1962-1972: for every reused team entry the pair of smaller intrinsic value; an
    entry that stays 0 in Python is [None] *)
Definition ic_choose (A : list (list num)) (e : (nat * nat) * (nat * nat)) : option (option (nat * nat)) :=
  ' (_, r) <- foldM (fun (st : num * option (nat * nat)) c =>
      let '(m, r) := st in
      x <- get2 A (fst c) (snd c) ;;
      Some (if nlt x m then (x, Some c) else (m, r))) [fst e; snd e] (zn 1000000000, None) ;;
  Some r.

(** the variables of the [while] loops 1879-1931 and 1993-2088 *)
Record kc_loop := { l_weights : list Z; l_sel : list nat; l_locs : list nat }.
Definition combo_of (o : kc_obj) (l : kc_loop) (t : nat) : option (nat * nat) :=
  k <- index_of t (l_sel l) ;; loc <- get (l_locs l) k ;; get (o_combos o) loc.
(** [department in np.array(combination) - 1] *)
Definition in_combo (d : nat) (c : nat * nat) : bool := (d =? fst c - 1) || (d =? snd c - 1).
(** Python [max]: keeps the first maximum, comparisons with NaN are false *)
Definition py_max (l : list num) : option num :=
  match l with [] => None | x :: l => Some (fold_left (fun m y => if ngt y m then y else m) l x) end.
(** [np.searchsorted] on an increasing array *)
Definition searchsorted (l : list nat) (x : nat) : nat := length (filter (fun y => y <? x) l).
Fixpoint find_index {A} (f : A -> bool) (l : list A) : option nat :=
  match l with [] => None | a :: l => if f a then Some 0 else i <- find_index f l ;; Some (S i) end.
(** 1898-1900 and 2051-2056: the candidate of largest intrinsic value, looked up by value among
    all selected teams *)
Definition removed_team (intr : list num) (l : kc_loop) (cand : list nat) : option nat :=
  io <- mapM (get intr) (l_sel l) ;;
  vals <- mapM (fun t => get io (searchsorted (l_sel l) t)) cand ;;
  m <- py_max vals ;;
  k <- find_index (fun x => neqb x m) io ;;
  get (l_sel l) k.
(** [list.remove] *)
Fixpoint remove_first (x : nat) (l : list nat) : list nat :=
  match l with [] => [] | a :: l => if a =? x then l else a :: remove_first x l end.
Definition sub_at (w : list Z) (d : nat) (k : Z) : option (list Z) := x <- get w d ;; set w d (x - k)%Z.
(** 1916-1931 and 2074-2088 *)
Definition release (w : list Z) (u v type : nat) : option (list Z) :=
  match type with
  | 1 => sub_at w u 1
  | 2 => w <- sub_at w u 1 ;; sub_at w v 1
  | 3 => sub_at w u 2
  | 4 => w <- sub_at w u 2 ;; sub_at w v 1
  | 5 => w <- sub_at w u 2 ;; sub_at w v 2
  | _ => Some w
  end.
(** 1902-1931 and 2059-2088 *)
Definition remove_team (o : kc_obj) (l : kc_loop) (t : nat) : option kc_loop :=
  k <- index_of t (l_sel l) ;;
  loc <- get (l_locs l) k ;;
  c <- get (o_combos o) loc ;;
  type <- get (o_types o) t ;;
  w <- release (l_weights l) (fst c - 1) (snd c - 1) type ;;
  Some {| l_weights := w; l_sel := filter (fun x => negb (x =? t)) (l_sel l);
          l_locs := remove_first loc (l_locs l) |}.

(** 1886-1893: candidates of the first department over capacity *)
Definition dept_candidates (o : kc_obj) (l : kc_loop) : option (list nat) :=
  cs <- mapM (combo_of o l) (l_sel l) ;;
  match exceeding (o_caps o) (l_weights l) with
  | [] => None
  | d :: _ => Some (map fst (filter (fun tc => in_combo d (snd tc)) (combine (l_sel l) cs)))
  end.
(** 2001-2029: candidates of every department over capacity; 2040-2045: if some candidate is in two
    departments, only those *)
Definition team_candidates (o : kc_obj) (l : kc_loop) : option (list nat) :=
  cs <- mapM (combo_of o l) (l_sel l) ;;
  let ex := exceeding (o_caps o) (l_weights l) in
  let tcs := combine (l_sel l) cs in
  let of_dept d :=
    let both := filter (fun tc => in_combo d (snd tc) && mem (fst (snd tc) - 1) ex && mem (snd (snd tc) - 1) ex) tcs in
    match both with [] => filter (fun tc => in_combo d (snd tc)) tcs | _ => both end in
  let all := fold_left (fun acc d => acc ++ filter (fun tc => negb (mem (fst tc) (map fst acc))) (of_dept d)) ex [] in
  let two := filter (fun tc : nat * (nat * nat) => negb (fst (snd tc) =? snd (snd tc))) all in
  Some (map fst (match two with [] => all | _ => two end)).
(** the two [while] loops; [None] when a statement raises, and when [fuel] rounds are not enough *)
Fixpoint repair (cands : kc_obj -> kc_loop -> option (list nat)) (fuel : nat) (o : kc_obj) (intr : list num)
  (l : kc_loop) : option kc_loop :=
  if nonempty (exceeding (o_caps o) (l_weights l)) then
    match fuel with
    | 0 => None
    | S fuel =>
        cand <- cands o l ;;
        t <- removed_team intr l cand ;;
        l <- remove_team o l t ;;
        repair cands fuel o intr l
    end
  else Some l.

(** [intermediate_selected_teams_indices], [team_locations], [post_processing_ic_combination] *)
Record kc_post := { q_sel : list nat; q_locs : list nat; q_ic : list (option (nat * nat)) }.
(** post_analysis, 1806-1826; option 1: 1828-1938, option 2: 1940-2096.  Option 2 uses [np.int]
    (2041, 2044), which NumPy 1.24 removed; the model is for older versions.  For any other option
    the code keeps the attributes of an earlier call or raises; the model fails. *)
Definition kc_post_analysis (o : kc_obj) (pp : bool) (opt : nat) (A : list (list num)) (intr : list num)
  (p : kc_pre) : option kc_post :=
  if pp then
    cands <- match opt with 1 => Some dept_candidates | 2 => Some team_candidates | _ => None end ;;
    ic <- mapM (ic_choose A) (p_entries p) ;;
    let l := {| l_weights := p_weights p; l_sel := p_sel p; l_locs := p_locs p |} in
    l <- (if p_exceeded p then repair cands (length (p_sel p)) o intr l else Some l) ;;
    Some {| q_sel := l_sel l; q_locs := l_locs l; q_ic := ic |}
  else Some {| q_sel := p_sel p; q_locs := p_locs p; q_ic := [] |}.

(** ** results_analysis: Impa.py:2098-2232 *)

(** one element of [results_composed]: departments, type, teams, projects, all numbered from 1 *)
Record kc_result := { r_u : nat; r_v : nat; r_type : nat; r_teams : list nat; r_projects : list nat }.
(** 2131 and 2215: [[i[0] for i in ic if i[1] == team][0]]; raises on a 0 entry *)
Definition kept_project (ic : list (option (nat * nat))) (t : nat) : option nat :=
  cs <- mapM (fun c => c) ic ;;
  match filter (fun c => snd c =? t) cs with [] => None | c :: _ => Some (fst c) end.
(** 2128-2168 *)
Definition kc_results (o : kc_obj) (pp : bool) (p : kc_pre) (q : kc_post) : option (list kc_result) :=
  mapM (fun i =>
    t <- get (q_sel q) i ;;
    pairs <- (if mem t (p_reused p) && pp
              then proj <- kept_project (q_ic q) t ;; Some (filter (fun c => fst c =? proj) (p_pairs p))
              else Some (filter (fun c => snd c =? t) (p_pairs p))) ;;
    loc <- get (q_locs q) i ;;
    c <- get (o_combos o) loc ;;
    type <- get (o_types o) t ;;
    Some {| r_u := fst c; r_v := snd c; r_type := type;
            r_teams := map (fun c => snd c + 1) pairs; r_projects := map (fun c => fst c + 1) pairs |})
  (seq 0 (length (q_sel q))).
(** 2114, 2140-2143, 2169-2178: weights used after post-processing and the flag printed at 2180 *)
Definition kc_final_exceeded (o : kc_obj) (q : kc_post) : option bool :=
  tw <- foldM (add_weights (length (o_caps o)) (o_weights o)) (q_sel q) (repeat 0%Z (length (o_caps o))) ;;
  Some (nonempty (exceeding (o_caps o) tw)).

(** ** The whole call, as in main_kc_mwm.py:58-88: initialize, iterate, pre_analysis, post_analysis *)

(** [np.array(...).T] of a rectangular list of lists with [k] columns *)
Definition transpose (k : nat) (m : list (list num)) : list (list num) :=
  map (fun j => map (fun r => nth j r n0) m) (seq 0 k).
(** [a.reshape(n, k)] *)
Definition reshape (n k : nat) (v : list num) : list (list num) :=
  map (fun i => firstn k (skipn (k * i) v)) (seq 0 n).
Record kc_answer := { a_obj : kc_obj; a_pre : kc_pre; a_post : kc_post; a_results : list kc_result }.
(** [rew_team] is [input_load[2]], [rew_proj] (one row per team) is [input_load[3]].  1224 and 1226:
    rectangular [rew_proj]; 1238-1239: its shape.  Simplification: a [rew_team] that does not have
    one element per team makes the model fail; the code raises at 1469 or 1565 except that NumPy
    broadcasts a single element.  1430-1516 are [py_team_messages], [py_nonzero], [py_pad] of
    M_InOut. *)
Definition kc_call (iters : nat) (flag : bool) (alpha thr : num) (pp : bool) (opt : nat)
  (caps types : list nat) (rew_team : list num) (rew_proj : list (list num)) : option kc_answer :=
  o <- kc_initialize caps types ;;
  r0 <- get rew_proj 0 ;;
  let P := length r0 in
  let T := o_teams o in
  if (length rew_proj =? T) && forallb (fun r => length r =? P) rew_proj && (length rew_team =? T) then
    let R := transpose P rew_proj in
    let W := o_weights o in
    let nz := py_nonzero W in
    ' (ext, intr) <- wrapper_kc_mwm iters (length caps) T P (concat (py_team_messages W rew_team)) caps
        rew_team (concat R) (concat W) (concat (py_pad nz)) (map (@length nat) nz)
        (list_max (map (@length nat) nz)) flag alpha ;;
    let A := reshape P T intr in
    let out := zip_with nadd ext rew_team in
    p <- kc_pre_analysis o thr A ;;
    q <- kc_post_analysis o pp opt A out p ;;
    res <- kc_results o pp p q ;;
    Some {| a_obj := o; a_pre := p; a_post := q; a_results := res |}
  else None.
