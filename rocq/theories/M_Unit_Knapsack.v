(** * Model: the unit tests of the knapsack steps.

    test/python_kc_mwm/test/ut_knapsack.py and test/include/ut_knapsack.hpp; the comparison is in
    test/python_kc_mwm/test/ut_methods_utils.py:30-40.  Conventions are those of M_Unit_Tests.  [D] departments with
    capacities [Nu], [T] teams, [W] the weights that were generated from them (ut_knapsack.py:14-18). *)
From Verif Require Import Num Arr M_InOut M_Filter M_Knapsack M_PyRef M_PyRef_Kc M_Kc_Py M_Test_Check M_Unit_Tests.
Local Open Scope nat_scope.

(** The teams of the tests: those of team_reward_generation in Impa.py ([team_case], [place]) without the rewards.
    The constants are the same (test/python_kc_mwm/src/initializationModule.py:9-10).  Simplification: as there, a
    type other than 1..5 fails.  test/python_kc_mwm/test/ut_utils.py:123-263 *)
Definition ut_gen_type (caps : list nat) (u v : nat) (g : gen) (type : nat) : option gen :=
  ' (size, placed) <- team_case caps u v type ;;
  g <- foldM (place size type) placed g ;;
  if size =? 0 then Some g
  else foldM (place size type)
         (map (fun d => (d, 0)) (filter (fun d => negb (d =? u) && negb (d =? v)) (units (length caps)))) g.
(** all pairs of departments, since nothing is pruned: ut_utils.py:83-108, 110-122, 265 *)
Definition ut_generate (caps types : list nat) : option gen :=
  foldM (fun g c => foldM (ut_gen_type caps (fst c) (snd c)) types g)
    (list_prod (units (length caps)) (units (length caps)))
    {| gen_reward := []; gen_weights := repeat [] (length caps); gen_types := repeat [] (length caps) |}.
(** Number of teams and weights; [np.array] of lists of different lengths raises.  ut_knapsack.py:14-22, 98-106 *)
Definition ut_teams (caps types : list nat) : option (nat * list (list nat)) :=
  g <- ut_generate caps types ;;
  ty <- get (gen_types g) 0 ;;
  w <- get (gen_weights g) 0 ;;
  if forallb (fun r => length r =? length w) (gen_weights g) then Some (length ty, gen_weights g) else None.

(** What the C++ program reads: weights, participating teams (stored padded), numbers of them, messages.
    ut_knapsack.hpp:41-70 *)
Definition read_teams (D T : nat) (W : list (list nat)) (msgs : list (list num))
  : option (list (list nat) * list (list nat) * list nat * list (list num)) :=
  let nz := py_nonzero W in
  let sizes := map (@length nat) nz in
  weights <- read_rows 0 D T (concat W) ;;
  nonzero <- read_padded D (list_max sizes) sizes (concat (py_pad nz)) ;;
  m <- read_rows n0 D T (concat msgs) ;;
  Some (weights, nonzero, sizes, m).

(** KnapsackForward ([back] false) and KnapsackBackward ([back] true): one pair of files for every department.
    ut_knapsack.py:13-95; ut_knapsack.hpp:17-107 *)
Definition ut_tables (back : bool) (D T : nat) (Nu : list nat) (W : list (list nat)) (reward : list num)
  : option (list files) :=
  let msgs := py_team_messages W reward in
  pure <- mapM (fun d =>
    cap <- get Nu d ;;
    m <- get msgs d ;;
    w <- get W d ;;
    if back then py_backward cap m w else py_forward cap m w) (seq 0 D) ;;
  ' (weights, nonzero, sizes, m') <- read_teams D T W msgs ;;
  wrapper <- mapM (fun d =>
    cap <- get Nu d ;;
    nz <- get nonzero d ;;
    size <- get sizes d ;;
    w <- get weights d ;;
    m <- get m' d ;;
    let tbl := np_zeros (T + 1) (cap + 1) in
    if back then backward T cap nz size w m tbl else forward T cap nz size w m tbl) (seq 0 D) ;;
  Some (combine (map (@concat num) pure) (map (@concat num) wrapper)).

(** knapsack.py:111-134 on given tables *)
Definition py_extrinsic_department (num_teams cap : nat) (msgs : list num) (weights : list nat)
    (fv bv : list (list num)) : option (list num) :=
  foldM (fun out t =>
    w <- get weights t ;;
    m <- get msgs t ;;
    ' (solid, dash) <- py_metrics cap t w m fv bv ;;
    s <- py_min solid ;;
    d <- py_min dash ;;
    set out t (nsub (nsub s d) m)) (non_zero weights) (repeat n0 num_teams).

(** ExtrinsicOutputDepartment; [fwd] and [bwd] are the tables drawn for every department.
    ut_knapsack.py:97-153; ut_knapsack.hpp:109-180 *)
Definition ut_extrinsic_department (D T : nat) (Nu : list nat) (W : list (list nat)) (reward : list num)
    (fwd bwd : list (list (list num))) : option files :=
  let msgs := py_team_messages W reward in
  pure <- mapM (fun d =>
    cap <- get Nu d ;;
    m <- get msgs d ;;
    w <- get W d ;;
    fv <- get fwd d ;;
    bv <- get bwd d ;;
    py_extrinsic_department T cap m w fv bv) (seq 0 D) ;;
  weights <- read_rows 0 D T (concat W) ;;
  m' <- read_rows n0 D T (concat msgs) ;;
  wrapper <- mapM (fun d =>
    cap <- get Nu d ;;
    m <- get m' d ;;
    w <- get weights d ;;
    fv <- get fwd d ;;
    bv <- get bwd d ;;
    fv' <- read_rows n0 (T + 1) (cap + 1) (concat fv) ;;
    bv' <- read_rows n0 (T + 1) (cap + 1) (concat bv) ;;
    extrinsic_row cap w m fv' bv' (repeat n0 T)) (seq 0 D) ;;
  Some (concat pure, concat wrapper).

(** Team2KnapsackUpdate; [extr] and [oric] are drawn.
    ut_knapsack.py:155-224; ut_knapsack.hpp:183-256 *)
Definition ut_team_to_knapsack (D T : nat) (W : list (list nat)) (reward : list num)
    (extr : list (list num)) (oric : list num) : option files :=
  let nz := py_nonzero W in
  let sizes := map (@length nat) nz in
  pure <- py_team_to_department D T W reward extr oric ;;
  nonzero <- read_padded D (list_max sizes) sizes (concat (py_pad nz)) ;;
  reward' <- slice reward 0 T ;;
  extr' <- read_rows n0 D T (concat extr) ;;
  oric' <- slice oric 0 T ;;
  wrapper <- team_to_knapsack D T nonzero (np_zeros D T) reward' extr' oric' ;;
  Some (concat pure, concat wrapper).

(** ProcessExtrinsicOutputDepartment: the same raw messages in every one of [iters] iterations.
    ut_knapsack.py:226-271; ut_knapsack.hpp:258-314 *)
Definition ut_process (D T : nat) (flag : bool) (alpha : num) (iters : nat) (dummy : list (list num))
  : option files :=
  pure <- py_filter_run flag alpha 0 (repeat dummy iters) None (np_zeros D T) ;;
  m <- read_rows n0 D T (concat dummy) ;;
  ' (wrapper, _) <- filter_run flag alpha D 0 (repeat m iters) (np_zeros D T) (np_zeros D T) ;;
  Some (concat pure, concat wrapper).
