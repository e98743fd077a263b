(** * Model: knapsack (department) message updates of KC-MWM (C++).

    include/impalib/knapsack.hpp.  The functions index every matrix with the same
    [department_index]; the model takes the rows of that department:
    [nz] = [rNonZeroWeightIndices[d]], [size] = [pNON_ZERO_WEIGHT_INDICES_SIZES_PY[d]],
    [weights] = [rTeamsWeightsPerDepartment[d]], [msgs] = [rTeam2KnapsackM[d]],
    [cap] = [max_state_department].  Weights and capacity are naturals. *)
From Verif Require Import Num Arr.
Local Open Scope nat_scope.

(** Algorithms of the C++ library that require a sorted range; on an unsorted range their
    result is unspecified and the model fails. *)
Fixpoint sortedb (l : list nat) : bool :=
  match l with
  | a :: (b :: _) as l' => (a <=? b) && sortedb l'
  | _ => true
  end.
(** [std::binary_search] *)
Definition binary_search (l : list nat) (x : nat) : option bool :=
  if sortedb l then Some (existsb (Nat.eqb x) l) else None.
(** [std::upper_bound] as a position: index of the first element greater than [x] *)
Fixpoint first_greater (l : list nat) (x : nat) : nat :=
  match l with
  | [] => 0
  | a :: l => if x <? a then 0 else S (first_greater l x)
  end.
Definition upper_bound (l : list nat) (x : nat) : option nat :=
  if sortedb l then Some (first_greater l x) else None.
(** [std::set_intersection] of two sorted ranges (the usual merge); [fuel] bounds the number of
    steps and is always large enough *)
Fixpoint merge_inter (fuel : nat) (a b : list nat) : list nat :=
  match fuel, a, b with
  | S fuel, x :: a', y :: b' =>
      if x <? y then merge_inter fuel a' b
      else if y <? x then merge_inter fuel a b'
      else x :: merge_inter fuel a' b'
  | _, _, _ => []
  end.
Definition set_intersection (a b : list nat) : option (list nat) :=
  if sortedb a && sortedb b then Some (merge_inter (length a + length b) a b) else None.
(** [std::min_element], dereferenced: fails on an empty range *)
Definition min_element (l : list num) : option num :=
  match l with [] => None | a :: l => Some (fold_left nmin l a) end.
(** [v.back()] *)
Definition back {A} (l : list A) : option A :=
  match length l with O => None | S k => get l k end.

(** knapsack.hpp:102-117: one stage of the forward trellis *)
Definition fwd_stage (cap t w : nat) (m : num) (init : list num) (tbl : list (list num))
  : option (list (list num)) :=
  for_up 0 (cap + 1) tbl (fun tbl a =>
    if (w <=? a) && negb ((t =? 0) && negb (a =? w)) then
      x <- get init a ;;
      y <- get init (a - w) ;;
      set2 tbl (t + 1) a (nmin x (nadd y m))
    else
      x <- get init a ;;
      set2 tbl (t + 1) a x).

(** knapsack.hpp:76-148 *)
Definition forward (num_teams cap : nat) (nz : list nat) (size : nat) (weights : list nat)
  (msgs : list num) (tbl : list (list num)) : option (list (list num)) :=
  (* lines 84-97 *)
  let init := n0 :: repeat PInf cap in
  tbl <- set tbl 0 init ;;
  z0 <- get nz 0 ;;
  tbl <- (if z0 =? 0 then Some tbl
          else for_up 0 z0 tbl (fun tbl j => set tbl (j + 1) init)) ;;
  (* lines 99-147 *)
  ' (tbl, _) <- for_up 0 size (tbl, init) (fun st l =>
    let '(tbl, init) := st in
    t <- get nz l ;;
    w <- get weights t ;;
    m <- get msgs t ;;
    tbl <- fwd_stage cap t w m init tbl ;;
    init <- get tbl (t + 1) ;;
    tbl <- (if length nz =? num_teams then Some tbl
            else found <- binary_search nz (t + 1) ;;
                 if found then Some tbl
                 else last <- back nz ;;
                      if (last <=? t + 1) && (t + 1 <? num_teams) then
                        for_up (t + 1) num_teams tbl (fun tbl j => set tbl (j + 1) init)
                      else if t + 1 <? last then
                        next <- upper_bound nz t ;;
                        z <- get nz next ;;
                        for_up (t + 1) z tbl (fun tbl j => set tbl (j + 1) init)
                      else Some tbl) ;;
    Some (tbl, init)) ;;
  Some tbl.

(** knapsack.hpp:190-205: one stage of the backward trellis *)
Definition bwd_stage (cap t w : nat) (m : num) (init : list num) (tbl : list (list num))
  : option (list (list num)) :=
  for_up 0 (cap + 1) tbl (fun tbl a =>
    if ((0 <? t) && (a + w <=? cap)) || ((a =? 0) && (t =? 0)) then
      x <- get init a ;;
      y <- get init (a + w) ;;
      set2 tbl t a (nmin x (nadd y m))
    else
      x <- get init a ;;
      set2 tbl t a x).

(** knapsack.hpp:163-236.  [for (j = hi; j > lo; j--)] is [for_down (lo+1) (hi+1)].  With
    [t = 0] the code searches for [t - 1 = -1], does not find it, and neither branch of lines
    216 and 223 is taken. *)
Definition backward (num_teams cap : nat) (nz : list nat) (size : nat) (weights : list nat)
  (msgs : list num) (tbl : list (list num)) : option (list (list num)) :=
  (* lines 172-185; [size - 1] underflows to -1 and then indexes out of range *)
  let init := repeat n0 (cap + 1) in
  tbl <- set tbl num_teams init ;;
  zl <- match size with O => None | S k => get nz k end ;;
  tbl <- (if zl + 1 =? num_teams then Some tbl
          else z0 <- get nz 0 ;;
               for_down (z0 + 1) num_teams tbl (fun tbl j => set tbl j init)) ;;
  (* lines 187-235 *)
  ' (tbl, _) <- for_down 0 size (tbl, init) (fun st l =>
    let '(tbl, init) := st in
    t <- get nz l ;;
    w <- get weights t ;;
    m <- get msgs t ;;
    tbl <- bwd_stage cap t w m init tbl ;;
    init <- get tbl t ;;
    tbl <- (if size - 1 =? num_teams then Some tbl
            else match t with
                 | O => Some tbl
                 | S t1 =>
                     found <- binary_search nz t1 ;;
                     if found then Some tbl
                     else z0 <- get nz 0 ;;
                          if t1 <=? z0 then
                            for_down 0 (t1 + 1) tbl (fun tbl j => set tbl j init)
                          else
                            next <- upper_bound nz t1 ;;
                            zp <- match next with O => None | S p => get nz p end ;;
                            for_down (zp + 1) (t1 + 1) tbl (fun tbl j => set tbl j init)
                 end) ;;
    Some (tbl, init)) ;;
  Some tbl.

(** knapsack.hpp:271-295: the two lists of path metrics of one team *)
Definition path_metrics (cap t w : nat) (m : num) (fwd bwd : list (list num))
  : option (list num * list num) :=
  if t =? 0 then
    f <- get2 fwd t t ;;
    b <- get2 bwd (t + 1) w ;;
    b0 <- get2 bwd (t + 1) 0 ;;
    Some ([nadd (nadd f b) m], [nadd f b0])
  else
    for_up 0 (cap + 1) ([], []) (fun st i =>
      let '(solid, dash) := st in
      solid <- (if i + w <=? cap then
                  f <- get2 fwd t i ;;
                  b <- get2 bwd (t + 1) (i + w) ;;
                  Some (solid ++ [nadd (nadd f b) m])
                else Some solid) ;;
      f <- get2 fwd t i ;;
      b <- get2 bwd (t + 1) i ;;
      Some (solid, dash ++ [nadd f b])).

(** knapsack.hpp:251-307; [out] is the row of the department *)
Definition extrinsic_row (cap : nat) (weights : list nat) (msgs : list num)
  (fwd bwd : list (list num)) (out : list num) : option (list num) :=
  for_up 0 (length weights) out (fun out t =>
    w <- get weights t ;;
    if w =? 0 then set out t n0
    else
      m <- get msgs t ;;
      ' (solid, dash) <- path_metrics cap t w m fwd bwd ;;
      s <- min_element solid ;;
      d <- min_element dash ;;
      set out t (nsub (nsub s d) m)).

(** One department of graphical_model.hpp:142-171 (GraphicalModelKcMwm::iterate): fresh stage
    tables, forward, backward, extrinsic row. *)
Definition department_update (num_teams cap : nat) (nz : list nat) (size : nat)
  (weights : list nat) (msgs : list num) (out : list num) : option (list num) :=
  let tbl := repeat (repeat n0 (cap + 1)) (num_teams + 1) in
  fwd <- forward num_teams cap nz size weights msgs tbl ;;
  bwd <- backward num_teams cap nz size weights msgs tbl ;;
  extrinsic_row cap weights msgs fwd bwd out.

(** [v.erase(std::find(v.begin(), v.end(), l))]: erasing [end()] is undefined *)
Fixpoint find_erase (v : list nat) (l : nat) : option (list nat) :=
  match v with
  | [] => None
  | a :: v => if a =? l then Some v else v' <- find_erase v l ;; Some (a :: v')
  end.
(** [v.erase(v.begin() + i)] *)
Definition erase_at {A} (v : list A) (i : nat) : option (list A) :=
  if i <? length v then Some (firstn i v ++ skipn (S i) v) else None.

(** knapsack.hpp:335-357: one other department [t] *)
Definition share_department (num_teams d : nat) (nzs : list (list nat)) (reward oric : list num)
  (extr : list (list num)) (st : list (list num) * list nat) (t : nat)
  : option (list (list num) * list nat) :=
  let '(t2k, unique) := st in
  a <- get nzs d ;;
  b <- get nzs t ;;
  inter <- set_intersection a b ;;
  (* the output range has [num_teams] elements *)
  _ <- (if length inter <=? num_teams then Some tt else None) ;;
  foldM (fun st l =>
    let '(t2k, unique) := st in
    r <- get reward l ;;
    e <- get2 extr t l ;;
    o <- get oric l ;;
    t2k <- set2 t2k d l (nadd (nadd r e) o) ;;
    unique <- find_erase unique l ;;
    Some (t2k, unique)) inter (t2k, unique).

(** knapsack.hpp:320-365 *)
Definition team_to_knapsack (num_departments num_teams : nat) (nzs : list (list nat))
  (t2k : list (list num)) (reward : list num) (extr : list (list num)) (oric : list num)
  : option (list (list num)) :=
  for_up 0 (length extr) t2k (fun t2k d =>
    unique <- get nzs d ;;
    remaining <- erase_at (seq 0 num_departments) d ;;
    ' (t2k, unique) <- foldM (share_department num_teams d nzs reward oric extr)
                             remaining (t2k, unique) ;;
    foldM (fun t2k u =>
      r <- get reward u ;;
      o <- get oric u ;;
      set2 t2k d u (nadd r o)) unique t2k).
