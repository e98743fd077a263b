(** * Python front end of the K-SAT solver: src/impa/Impa.py, class GraphicalModelKsat. *)
From Verif Require Import Num Arr M_Tsp_Run.
Local Open Scope nat_scope.

(** The formula as stored in the object (Impa.py:2326-2333, 2306): number of clauses, the clause
    view (variables and types of every clause), the used variables, and the variable view (clauses
    and types of every variable). *)
Record formula := {
  y_nc : nat;
  y_conx : list (list nat);
  y_types : list (list Z);
  y_used : list nat;
  y_vconx : list (list nat);
  y_vtypes : list (list Z) }.

(** Python truth value of an array element: NaN counts as true *)
Definition truthy (x : num) : bool := negb (neqb x n0).

(** ** get_summary: Impa.py:2599-2614 *)
Record summary := { v_active : list nat; v_inactive : list nat; v_sat : list nat; v_unsat : list nat }.
(** positions [(i, j)] of a list of lists, as enumerated at 2604 and 2607 *)
Definition positions {A} (m : list (list A)) : list (nat * nat) :=
  concat (map (fun i => map (pair i) (seq 0 (length (nth i m [])))) (seq 0 (length m))).
(** Impa.py:2604-2605 ([want] = 1, [vars] = active) and 2607-2608 ([want] = -1, inactive) *)
Definition hits (f : formula) (want : Z) (vars : list nat) : option (list nat) :=
  mapM (fun ij => get2 (y_vconx f) (fst ij) (snd ij))
       (filter (fun ij => (nth (snd ij) (nth (fst ij) (y_vtypes f) []) 0 =? want)%Z && mem (fst ij) vars)
               (positions (y_vtypes f))).
(** [v_sat] is a Python set turned into a list; here it may repeat elements, only membership is
    used. *)
Definition get_summary (f : formula) (hd : list num) : option summary :=
  us <- mapM (get hd) (y_used f) ;;
  let active := map fst (filter (fun p => truthy (snd p)) (combine (y_used f) us)) in
  let inactive := map fst (filter (fun p => negb (truthy (snd p))) (combine (y_used f) us)) in
  solid <- hits f 1 active ;;
  dashed <- hits f (-1) inactive ;;
  let sat := solid ++ dashed in
  Some {| v_active := active; v_inactive := inactive; v_sat := sat;
          v_unsat := filter (fun c => negb (mem c sat)) (seq 0 (y_nc f)) |}.

(** The part of the object that changes: [hard_decision], the summary fields and
    [formula_satisfied] *)
Record ks_obj := { k_hd : list num; k_sum : summary; k_flag : bool }.
(** print_summary, Impa.py:2616-2623 *)
Definition flag_of (v : summary) : bool := negb (nonempty (v_unsat v)).

(** Impa.py:2629-2631: a value that is neither above nor at most the threshold (NaN) is kept *)
Definition py_decide (thr v : num) : num :=
  if nleb v thr then n1 else if ngt v thr then n0 else v.
(** hard_decision_analysis, Impa.py:2625-2636; 2638-2644 only prints *)
Definition hard_decision_analysis (f : formula) (thr : num) (intrinsic : list num) : option ks_obj :=
  let hd := map (py_decide thr) intrinsic in
  v <- get_summary f hd ;;
  Some {| k_hd := hd; k_sum := v; k_flag := flag_of v |}.
(** run_impa, Impa.py:2480-2482 *)
Definition py_ksat_intrinsic (f : formula) (metrics extr : list num) : option (list num) :=
  used <- foldM (fun um n => m <- get metrics n ;; set um n m) (y_used f) (repeat n0 (length extr)) ;;
  Some (zip_with nadd extr used).

(** ** run_post_processing: Impa.py:2646-2769 *)

(** a loop with [break]: the body says whether to stop *)
Fixpoint fold_break {S A} (body : S -> A -> option (S * bool)) (l : list A) (s : S) : option S :=
  match l with
  | [] => Some s
  | a :: l => ' (s, stop) <- body s a ;; if (stop : bool) then Some s else fold_break body l s
  end.

(** literals of a clause.  Simplification: the types are looked up for all positions at once, the
    code looks them up when needed. *)
Definition literals (f : formula) (c : nat) : option (list (nat * Z)) :=
  row <- get (y_conx f) c ;;
  ty <- get (y_types f) c ;;
  mapM (fun i => v <- get row i ;; t <- get ty i ;; Some (v, t)) (seq 0 (length row)).

(** 2672-2683 and 2726-2737: try one flip; [old] is [old_length_unsatisfied_constraints].
    Returns whether to leave the loop. *)
Definition try_flip (f : formula) (st : ks_obj * nat) (var : nat) (val : num)
  : option (ks_obj * nat * bool) :=
  let '(o, old) := st in
  hd' <- set (k_hd o) var val ;;
  v <- get_summary f hd' ;;
  if length (v_unsat v) <? old then
    hd'' <- set (k_hd o) var val ;;
    Some ({| k_hd := hd''; k_sum := v; k_flag := flag_of v |}, length (v_unsat v),
          negb (nonempty (v_unsat v)))
  else Some ({| k_hd := k_hd o; k_sum := v; k_flag := k_flag o |}, old, false).

(** 2664-2665: literals of a violated clause that also occur in another one and are false *)
Definition common_of (s : summary) (a b : list (nat * Z)) : list (nat * Z) :=
  flat_map (fun e1 => flat_map (fun e2 =>
    if (fst e1 =? fst e2) && (snd e1 =? snd e2)%Z
       && ((mem (fst e1) (v_active s) && (snd e1 =? -1)%Z)
           || (mem (fst e1) (v_inactive s) && (snd e1 =? 1)%Z))
    then [e1] else []) b) a.
Definition lit_mem (e : nat * Z) (l : list (nat * Z)) : bool :=
  existsb (fun x => (fst e =? fst x) && (snd e =? snd x)%Z) l.
(** 2657-2668 *)
Definition common_elements (f : formula) (s : summary) : option (list (nat * Z)) :=
  foldM (fun acc c =>
    a <- literals f c ;;
    foldM (fun acc r =>
      b <- literals f r ;;
      Some (acc ++ filter (fun e => negb (lit_mem e acc)) (common_of s a b)))
      (filter (fun i => negb (i =? c)) (v_unsat s)) acc) (v_unsat s) [].
(** 2670-2684 *)
Definition phase1 (f : formula) (o : ks_obj) : option ks_obj :=
  l <- common_elements f (k_sum o) ;;
  ' (o, _) <- fold_break (fun st e => try_flip f st (fst e) (if (snd e =? -1)%Z then n0 else n1)) l
      (o, length (v_unsat (k_sum o))) ;;
  v <- get_summary f (k_hd o) ;;
  Some {| k_hd := k_hd o; k_sum := v; k_flag := k_flag o |}.

(** [l.index(x)], [None] = ValueError *)
Fixpoint index_of (x : nat) (l : list nat) : option nat :=
  match l with
  | [] => None
  | a :: l => if a =? x then Some 0 else i <- index_of x l ;; Some (S i)
  end.
(** type of variable [x] in clause [c], 2712 and 2727 *)
Definition type_in (f : formula) (c x : nat) : option Z :=
  row <- get (y_conx f) c ;;
  ty <- get (y_types f) c ;;
  i <- index_of x row ;;
  get ty i.
(** 2694-2701: number of true literals of a clause on variables outside the violated clause *)
Definition outside_true (s : summary) (cv : list nat) (lits : list (nat * Z)) : nat :=
  length (filter (fun l => negb (mem (fst l) cv)
    && (((snd l =? 1)%Z && mem (fst l) (v_active s))
        || ((snd l =? -1)%Z && mem (fst l) (v_inactive s)))) lits).
(** 2691-2717: for one violated clause, the clauses of interest with the part of the result they
    contribute: (their variables, overlap of common type, overlap if it is a single variable) *)
Definition investigated (f : formula) (cv : list nat) : list nat :=
  filter (fun i => let row := nth i (y_conx f) [] in
            existsb (fun e => mem e row) cv && negb (forallb (fun e => mem e row) cv))
         (seq 0 (length (y_conx f))).
Definition of_interest (f : formula) (s : summary) (cv : list nat) : option (list nat) :=
  counts <- mapM (fun i => l <- literals f i ;; Some (i, outside_true s cv l)) (investigated f cv) ;;
  Some (map fst (filter (fun p => snd p =? 0) counts)).
Definition overlaps (f : formula) (violated : nat) (cv : list nat) (i : nat)
  : option (list nat * list nat * list nat) :=
  row <- get (y_conx f) i ;;
  let overlap := filter (fun x => mem x cv) row in
  keep <- mapM (fun x => a <- type_in f i x ;; b <- type_in f violated x ;; Some (x, (a =? b)%Z)) overlap ;;
  Some (row, map fst (filter snd keep), if length overlap =? 1 then overlap else []).
(** one element of a set is visited once; the order is arbitrary *)
Definition dedup (l : list nat) : list nat := nodup Nat.eq_dec l.

(** 2689-2737, one violated clause; [combos] is [combinations_list] *)
Definition phase2_one (f : formula) (ord : list nat -> list nat) (st : ks_obj * list (list nat)) (c : nat)
  : option (ks_obj * list (list nat)) :=
  let '(o, combos) := st in
  cv <- get (y_conx f) c ;;
  ints <- of_interest f (k_sum o) cv ;;
  parts <- mapM (overlaps f c cv) ints ;;
  let combos := combos ++ [cv] ++ map (fun p => fst (fst p)) parts in
  let common := concat (map (fun p => snd (fst p)) parts) in
  let forbidden := concat (map snd parts) in
  let pool := ord (filter (fun x => negb (mem x forbidden)) (dedup common)) in
  ' (o, _) <- fold_break (fun st x =>
      t <- type_in f c x ;;
      try_flip f st x (if (t =? 1)%Z then n1 else n0)) pool (o, length (v_unsat (k_sum o))) ;;
  Some (o, combos).
(** 2685-2740 *)
Definition phase2 (f : formula) (ord : list nat -> list nat) (o : ks_obj)
  : option (ks_obj * list (list nat)) :=
  ' (o, combos) <- foldM (phase2_one f ord) (v_unsat (k_sum o)) (o, []) ;;
  v <- get_summary f (k_hd o) ;;
  Some ({| k_hd := k_hd o; k_sum := v; k_flag := k_flag o |}, combos).

(** [itertools.combinations(l, k)] and [itertools.product(range(2), repeat=k)] *)
Fixpoint combinations (l : list nat) (k : nat) : list (list nat) :=
  match k, l with
  | 0, _ => [[]]
  | S k', [] => []
  | S k', x :: l' => map (cons x) (combinations l' k') ++ combinations l' k
  end.
Fixpoint products (k : nat) : list (list bool) :=
  match k with
  | 0 => [[]]
  | S k => map (cons false) (products k) ++ map (cons true) (products k)
  end.
Definition bit (b : bool) : num := if b then n1 else n0.
(** 2754-2755 *)
Definition assign (hd : list num) (vars : list nat) (vals : list bool) : option (list num) :=
  foldM (fun hd p => set hd (fst p) (bit (snd p))) (combine vars vals) hd.
(** 2752-2766 *)
Definition try_assign (f : formula) (vars : list nat) (st : ks_obj * nat) (vals : list bool)
  : option (ks_obj * nat * bool) :=
  let '(o, old) := st in
  hd' <- assign (k_hd o) vars vals ;;
  v <- get_summary f hd' ;;
  if length (v_unsat v) <? old
  then Some ({| k_hd := hd'; k_sum := v; k_flag := flag_of v |}, length (v_unsat v), true)
  else Some ({| k_hd := k_hd o; k_sum := v; k_flag := k_flag o |}, old, false).
(** 2750-2768 *)
Definition try_combination (f : formula) (k : nat) (st : ks_obj * nat) (vars : list nat)
  : option (ks_obj * nat * bool) :=
  ' (o, old) <- fold_break (try_assign f vars) (products k) st ;;
  Some (o, old, negb (nonempty (v_unsat (k_sum o)))).
(** 2741-2769; [range(pp, 1, -1)] *)
Definition phase3 (f : formula) (ord : list nat -> list nat) (pp : nat) (combos : list (list nat)) (o : ks_obj)
  : option ks_obj :=
  o <- (if nonempty (v_unsat (k_sum o)) then
          ' (o, _) <- foldM (fun st k =>
              fold_break (try_combination f k) (combinations (ord (dedup (concat combos))) k) st)
              (rev (seq 2 (pp - 1))) (o, length (v_unsat (k_sum o))) ;;
          Some o
        else Some o) ;;
  v <- get_summary f (k_hd o) ;;
  Some {| k_hd := k_hd o; k_sum := v; k_flag := k_flag o |}.

(** Impa.py:2646-2769; [ord2], [ord3]: iteration orders of the sets at 2725 and 2747 *)
Definition post_processing (f : formula) (ord2 ord3 : list nat -> list nat) (pp : nat) (o : ks_obj)
  : option ks_obj :=
  o <- phase1 f o ;;
  ' (o, combos) <- phase2 f ord2 o ;;
  phase3 f ord3 pp combos o.

(** run_impa after the C++ call: Impa.py:2480-2496 *)
Definition py_ksat_finish (f : formula) (ord2 ord3 : list nat -> list nat) (thr : num) (pp : nat)
  (post_process : bool) (metrics extr : list num) : option ks_obj :=
  intr <- py_ksat_intrinsic f metrics extr ;;
  o <- hard_decision_analysis f thr intr ;;
  if nonempty (v_unsat (k_sum o)) && post_process then post_processing f ord2 ord3 pp o else Some o.

(** ** calculate_similarity: Impa.py:2552-2559, and its use at 2511-2518 *)
Definition similarity (a b : list nat) : Q :=
  let inter := length (filter (fun x => mem x b) (dedup a)) in
  let union := length (dedup (a ++ b)) in
  if union =? 0 then 1%Q else (inject_Z (Z.of_nat inter) / inject_Z (Z.of_nat union))%Q.
Definition average_similarity (f : formula) (s : summary) (valid_sol : list bool) : Q :=
  let act := filter (fun x => nth x valid_sol false) (y_used f) in
  let inact := filter (fun x => negb (nth x valid_sol false)) (y_used f) in
  (100 * (similarity (v_active s) act + similarity (v_inactive s) inact) / 2)%Q.

(** ** create_model_structure: Impa.py:2389-2441 *)

(** One clause is drawn with one index for the satisfying variable (2404) and, for each further
    position, an index into the list of the remaining variables (2414) and a sign (2416). *)
Record draw := { d_first : nat; d_rest : list (nat * bool) }.
Definition remaining (nv : nat) (conn : list nat) : list nat :=
  filter (fun i => negb (mem i conn)) (seq 0 nv).
(** 2404-2421; the literals of the clause.  [None]: index out of range. *)
Definition draw_clause (nv k : nat) (sol : list bool) (d : draw) : option (list (nat * Z)) :=
  value <- get sol (d_first d) ;;
  foldM (fun lits j =>
    ' (i, s) <- get (d_rest d) j ;;
    v <- get (remaining nv (map fst lits)) i ;;
    Some (lits ++ [(v, if (s : bool) then 1%Z else (-1)%Z)]))
    (seq 0 (k - 1)) [(d_first d, if (value : bool) then 1%Z else (-1)%Z)].
(** 2410-2411, 2419-2421: append to the entries of the variable *)
Definition push {A} (m : list (list A)) (i : nat) (x : A) : option (list (list A)) :=
  r <- get m i ;; set m i (r ++ [x]).
(** [r.index(c)] then [pop] on both lists, 2434-2436 *)
Definition pop_at {A} (m : list (list A)) (i j : nat) : option (list (list A)) :=
  r <- get m i ;; if j <? length r then set m i (firstn j r ++ skipn (S j) r) else None.
Definition same_set (a b : list nat) : bool :=
  forallb (fun x => mem x b) a && forallb (fun x => mem x a) b.
(** Local variables of the generator; the clause lists hold the clauses kept so far
    (simplification: the code keeps them in the first [index_constraint] of [num_constraints]
    slots, the others being empty lists, and drops the empty ones at the end, 2439-2440;
    an empty list is never equal to a drawn clause). *)
Record gen := {
  g_conx : list (list nat); g_types : list (list Z); g_used : list nat;
  g_vconx : list (list nat); g_vtypes : list (list Z) }.
Definition gen_step (nv k : nat) (sol : list bool) (g : gen) (d : draw) : option gen :=
  lits <- draw_clause nv k sol d ;;
  let c := length (g_conx g) in
  let conn := map fst lits in
  vconx <- foldM (fun m v => push m v c) conn (g_vconx g) ;;
  vtypes <- foldM (fun m l => push m (fst l) (snd l)) lits (g_vtypes g) ;;
  let used := g_used g ++ conn in
  if existsb (fun old => same_set old conn) (g_conx g) then
    ' (vconx, vtypes) <- foldM (fun st v =>
        let '(vconx, vtypes) := st in
        r <- get vconx v ;;
        j <- index_of c r ;;
        vconx <- pop_at vconx v j ;;
        vtypes <- pop_at vtypes v j ;;
        Some (vconx, vtypes)) conn (vconx, vtypes) ;;
    Some {| g_conx := g_conx g; g_types := g_types g; g_used := used; g_vconx := vconx; g_vtypes := vtypes |}
  else
    Some {| g_conx := g_conx g ++ [conn]; g_types := g_types g ++ [map snd lits]; g_used := used;
            g_vconx := vconx; g_vtypes := vtypes |}.
(** 2389-2441 with the planted assignment [sol] and the random draws given; [ord] is the order of
    [list(set(used_variables))] (2438).  [y_nc] is set as in 2302-2306. *)
Definition create_formula (nv k : nat) (sol : list bool) (ord : list nat -> list nat) (draws : list draw)
  : option formula :=
  g <- foldM (gen_step nv k sol) draws
         {| g_conx := []; g_types := []; g_used := []; g_vconx := repeat [] nv; g_vtypes := repeat [] nv |} ;;
  Some {| y_nc := length (g_conx g); y_conx := g_conx g; y_types := g_types g;
          y_used := ord (dedup (g_used g)); y_vconx := g_vconx g; y_vtypes := g_vtypes g |}.

(** initialize, Impa.py:2340-2353: initial messages *)
Definition initial_messages (nv : nat) (f : formula) (metrics : list num) : option (list (list num)) :=
  for_up 0 (length (y_conx f)) (repeat (repeat n0 nv) (y_nc f)) (fun m i =>
    row <- get (y_conx f) i ;;
    foldM (fun m v => c <- get metrics v ;; set2 m i v c) row m).
