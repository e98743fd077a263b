(** * Model: the pure Python implementation of the message updates, TSP part and shared pieces.

    test/python_tsp/src/{update_degree_constraint,subtour_elimination_constraint,
    update_equality_constraint,input_output}.py.  [None] is a Python exception.  Arrays are lists
    of rows; indices are naturals (the code never produces a negative one). *)
From Verif Require Import Num Arr.
Local Open Scope nat_scope.

(** ** numpy and builtins *)

(** [np.minimum], [np.maximum] on two numbers: NaN propagates *)
Definition np_minimum (a b : num) : num :=
  if is_nan a then a else if is_nan b then b else nmin a b.
Definition np_maximum (a b : num) : num :=
  if is_nan a then a else if is_nan b then b else nmax a b.
(** [np.min(v)], [np.max(v)]: ValueError on an empty array *)
Definition np_min (l : list num) : option num :=
  match l with [] => None | a :: l => Some (fold_left np_minimum l a) end.
Definition np_max (l : list num) : option num :=
  match l with [] => None | a :: l => Some (fold_left np_maximum l a) end.
(** builtin [min(v)]: keeps the first of equal elements; ValueError on an empty sequence *)
Definition py_min (l : list num) : option num :=
  match l with [] => None | a :: l => Some (fold_left nmin l a) end.
(** [np.sum(v)] (the order of the additions does not matter in exact arithmetic) *)
Definition np_sum (l : list num) : num := fold_left nadd l n0.
(** [np.zeros((n, k))] *)
Definition np_zeros (n k : nat) : list (list num) := repeat (repeat n0 k) n.
(** [a + b] on vectors and matrices of equal shape (simplification: no broadcasting) *)
Definition np_add (a b : list num) : option (list num) :=
  if length a =? length b then Some (zip_with nadd a b) else None.
Definition np_add2 (a b : list (list num)) : option (list (list num)) :=
  if length a =? length b then mapM (fun p => np_add (fst p) (snd p)) (combine a b) else None.
(** [c * a] on a matrix *)
Definition np_scale (c : num) (a : list (list num)) : list (list num) := map (map (nmul c)) a.
(** [v[idx]] and [v[idx] = vals] with a list of indices *)
Definition np_take {A} (v : list A) (idx : list nat) : option (list A) := mapM (get v) idx.
Definition np_put (v : list num) (idx : list nat) (vals : list num) : option (list num) :=
  if length idx =? length vals then foldM (fun v p => set v (fst p) (snd p)) (combine idx vals) v
  else None.
(** column [j] of a list of rows: [np.array(m).T[j]] *)
Definition column (m : list (list num)) (j : nat) : option (list num) := mapM (fun r => get r j) m.
(** transpose of a matrix with [k] columns, row by row *)
Definition np_transpose (k : nat) (m : list (list num)) : option (list (list num)) :=
  mapM (column m) (seq 0 k).
(** [np.sum(m, axis=1)], and [np.sum(np.array(m).T, axis=1)] of a non-empty list of rows
    ([np.array([])] has no second axis) *)
Definition row_sums (m : list (list num)) : list num := map np_sum m.
Definition column_sums (m : list (list num)) : option (list num) :=
  r0 <- get m 0 ;;
  mapM (fun j => c <- column m j ;; Some (np_sum c)) (seq 0 (length r0)).
(** [[i for i, x in enumerate(l) if p(x)]] *)
Definition indices {A} (p : A -> bool) (l : list A) : list nat :=
  map fst (filter (fun ix => p (snd ix)) (combine (seq 0 (length l)) l)).
(** [np.setdiff1d(np.arange(n), i)] *)
Definition all_but (n i : nat) : list nat := filter (fun j => negb (j =? i)) (seq 0 n).

(** ** Filtering: update_degree_constraint.py:74-87, subtour_elimination_constraint.py:68-81,
    knapsack.py:136-149, update_ksat_constraint.py:61-74 (the same code four times).
    [old] is the attribute [..._old], absent before the first filtered iteration.  With filtering
    on and [alpha == 0] no branch assigns the result: UnboundLocalError. *)
Definition py_filtering (flag : bool) (alpha : num) (iter : nat) (dummy : list (list num))
  (old : option (list (list num))) : option (list (list num) * option (list (list num))) :=
  if (iter =? 0) && flag && negb (neqb alpha n0) then
    let m := np_scale (nsub n1 alpha) dummy in Some (m, Some m)
  else if (0 <? iter) && flag && negb (neqb alpha n0) then
    o <- old ;;
    m <- np_add2 (np_scale alpha o) (np_scale (nsub n1 alpha) dummy) ;;
    Some (m, Some m)
  else if negb flag then Some (dummy, old)
  else None.

(** a run of the function over the raw messages of iterations [iter], [iter+1], ... *)
Fixpoint py_filter_run (flag : bool) (alpha : num) (iter : nat) (raws : list (list (list num)))
  (old : option (list (list num))) (last : list (list num)) : option (list (list num)) :=
  match raws with
  | [] => Some last
  | dummy :: raws =>
      ' (m, old) <- py_filtering flag alpha iter dummy old ;;
      py_filter_run flag alpha (S iter) raws old m
  end.

(** ** Degree and subtour constraints *)

(** update_degree_constraint.py:46-56 and :58-68; subtour_elimination_constraint.py:47-61: for
    every member of [conn], an optimum over the others is stored.  [rd e] is the incoming message
    of edge [e], [best] the optimum, [wr] the assignment. *)
Definition py_others_pass {O} (conn : list nat) (rd : nat -> option num)
  (best : list num -> option num) (wr : O -> nat -> num -> option O) (out : O) : option O :=
  for_up 0 (length conn) out (fun out i =>
    vals <- mapM rd (firstn i conn ++ skipn (i + 1) conn) ;;
    m <- best vals ;;
    c <- get conn i ;;
    wr out c m).

(** [-np.min(v)] *)
Definition neg_np_min (l : list num) : option num := m <- np_min l ;; Some (nopp m).
(** [-np.maximum(min(v), 0)] *)
Definition neg_clamped_min (l : list num) : option num :=
  m <- py_min l ;; Some (nopp (np_maximum m n0)).

(** update_degree_constraint.py:26-70 *)
Definition py_degree_update (num_nodes num_edges : nat) (edges : list (nat * nat))
  (msgs : list (list num)) : option (list (list num)) :=
  for_up 0 num_nodes (np_zeros num_edges num_nodes) (fun out node =>
    out <- py_others_pass (indices (fun e => node =? fst e) edges)
             (fun e => get2 msgs e node) neg_np_min (fun out e v => set2 out e node v) out ;;
    py_others_pass (indices (fun e => node =? snd e) edges)
             (fun e => get2 msgs e node) neg_np_min (fun out e v => set2 out e node v) out).

(** subtour_elimination_constraint.py:24-65; the array is built with one column per constraint
    and transposed at the end *)
Definition py_subtour_update (num_edges : nat) (deltas : list (list nat))
  (msgs : list (list num)) : option (list (list num)) :=
  m <- for_up 0 (length deltas) (np_zeros num_edges (length deltas)) (fun out s =>
    d <- get deltas s ;;
    py_others_pass d (fun e => get2 msgs s e) neg_clamped_min (fun out e v => set2 out e s v) out) ;;
  np_transpose (length deltas) m.

(** ** Edge equality constraints *)

(** update_equality_constraint.py:114-122 *)
Definition py_flip (edges : list (nat * nat)) (m : list (list num)) : option (list (list num)) :=
  for_up 0 (length edges) m (fun f ele =>
    ' (row, col) <- get edges ele ;;
    a <- get2 m ele col ;;
    f <- set2 f ele row a ;;
    b <- get2 m ele row ;;
    set2 f ele col b).

(** update_equality_constraint.py:31-37 *)
Definition py_edge_to_degree_relaxed (edges : list (nat * nat)) (cost m : list (list num))
  : option (list (list num)) :=
  f <- py_flip edges m ;; np_add2 f cost.

(** update_equality_constraint.py:39-90 *)
Definition py_edge_to_subtour (num_edges : nat) (deltas : list (list nat)) (cost : list num)
  (degree2eq subtour2edge : list (list num)) : option (list (list num)) :=
  if length deltas =? 1 then
    (* lines 48-60 *)
    d <- get deltas 0 ;;
    a <- np_take (row_sums degree2eq) d ;;
    c <- np_take cost d ;;
    v <- np_add a c ;;
    row <- np_put (repeat n0 num_edges) d v ;;
    Some [row]
  else
    (* lines 61-88 *)
    mapM (fun s =>
      d <- get deltas s ;;
      rows <- np_take degree2eq d ;;
      sum_degree <- np_put (repeat n0 num_edges) d (row_sums rows) ;;
      c <- np_take cost d ;;
      subtour_cost <- np_put (repeat n0 num_edges) d c ;;
      remaining <- np_take subtour2edge (all_but (length deltas) s) ;;
      sums <- column_sums remaining ;;
      sv <- np_take sums d ;;
      sum_subtours <- np_put (repeat n0 num_edges) d sv ;;
      x <- np_add sum_degree sum_subtours ;;
      np_add x subtour_cost) (seq 0 (length deltas)).

(** update_equality_constraint.py:92-112 *)
Definition py_edge_to_degree_augmented (edges : list (nat * nat)) (cost : list (list num))
  (degree2eq subtour2edge : list (list num)) : option (list (list num)) :=
  combined <- column_sums subtour2edge ;;
  f <- py_flip edges degree2eq ;;
  let zeros := map (fun r => repeat n0 (length r)) f in
  reshaped <- for_up 0 (length edges) zeros (fun z i =>
    ' (u, v) <- get edges i ;;
    x <- get combined i ;;
    z <- set2 z i u x ;;
    set2 z i v x) ;;
  y <- np_add2 reshaped f ;;
  np_add2 y cost.

(** ** Outputs: input_output.py:23-30 and :32-43 *)
Definition py_extrinsic_relaxed (degree2eq : list (list num)) : list num := row_sums degree2eq.
Definition py_extrinsic_augmented (degree2eq subtour2edge : list (list num)) : option (list num) :=
  s <- column_sums subtour2edge ;; np_add (row_sums degree2eq) s.
