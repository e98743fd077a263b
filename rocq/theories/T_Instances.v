(** * Properties of drawn and stored instances: C67, C68 *)
From Coq Require Import Permutation.
From Verif Require Import Num NumFacts Arr ArrFacts Spec SpecGraph MinSum MinSumFacts.
From Verif Require Import M_Tsp_Constraints P_Tsp_Constraints P_Kc_Trellis P_Ksat M_Equality P_Equality.
From Verif Require Import M_Filter P_Filter M_InOut P_InOut T_InOut M_Runs P_Runs.
From Verif Require Import M_Tsp_Loops P_Tsp_Loops M_Tsp_Run P_Tsp_Run P_Tsp_Fin M_Tsp_Py P_Tsp_Py.
From Verif Require Import M_Ksat_Py P_Ksat_Py P_Ksat_Gen M_Instances T_Ksat_Py.
Local Open Scope nat_scope.

(** ** C67: travelling salesperson *)

Lemma table_length {A} n (f : nat -> nat -> A) : length (table n f) = n.
Proof. unfold table. now rewrite map_length, seq_length. Qed.
Lemma table_shape {A} n (f : nat -> nat -> A) : shape n n (table n f).
Proof.
  split; [apply table_length|]. apply Forall_forall. intros r H. apply in_map_iff in H as (i & <- & _).
  now rewrite map_length, seq_length.
Qed.
Lemma nth_mapseq {A} (f : nat -> A) n i d : i < n -> nth i (map f (seq 0 n)) d = f i.
Proof.
  intros H. rewrite (nth_indep _ d (f 0)) by (rewrite map_length, seq_length; exact H).
  rewrite map_nth, seq_nth by exact H. reflexivity.
Qed.
Lemma table_nth {A} n (f : nat -> nat -> A) i j d : i < n -> j < n -> nth j (nth i (table n f) []) d = f i j.
Proof. intros Hi Hj. unfold table. rewrite nth_mapseq by exact Hi. now rewrite nth_mapseq. Qed.
Lemma table_ext {A} n (f g : nat -> nat -> A) : (forall i j, i < n -> j < n -> f i j = g i j) -> table n f = table n g.
Proof.
  intros H. unfold table. apply map_ext_in. intros i Hi. apply map_ext_in. intros j Hj.
  apply in_seq in Hi. apply in_seq in Hj. apply H; lia.
Qed.
Lemma table_inj n f : inj (table n f) = table n (fun i j => Fin (f i j)).
Proof. unfold inj, table. rewrite map_map. apply map_ext. intros i. now rewrite map_map. Qed.
Lemma zip_seq {A B C} (h : A -> B -> C) f g (l : list nat) : zip_with h (map f l) (map g l) = map (fun i => h (f i) (g i)) l.
Proof. unfold zip_with. induction l as [|x l IH]; cbn; [reflexivity|]. now rewrite IH. Qed.
Lemma table_zip n f g :
  zip_with (zip_with nadd) (table n f) (table n g) = table n (fun i j => nadd (f i j) (g i j)).
Proof. unfold table. rewrite zip_seq. apply map_ext. intros i. now rewrite zip_seq. Qed.

(** all ordered pairs of different nodes, row by row *)
Definition all_pairs (n : nat) : list (nat * nat) :=
  filter (fun e => negb (fst e =? snd e)) (list_prod (seq 0 n) (seq 0 n)).
Lemma list_prod_map {A B} (l : list A) (r : list B) : list_prod l r = concat (map (fun i => map (pair i) r) l).
Proof. induction l as [|x l IH]; cbn; [reflexivity|]. now rewrite IH. Qed.
Lemma filter_concat {A} (f : A -> bool) l : filter f (concat l) = concat (map (filter f) l).
Proof. induction l; cbn; [reflexivity|]. now rewrite filter_app, IHl. Qed.
Lemma filter_map_pair (f : nat * nat -> bool) i l : filter f (map (pair i) l) = map (pair i) (filter (fun j => f (i, j)) l).
Proof. induction l; cbn; [reflexivity|]. destruct (f (i, a)); cbn; congruence. Qed.
Lemma edges_all_pairs n C : cost_matrix_ok n C -> py_edges (inj C) = all_pairs n.
Proof.
  intros (S & D & O). unfold py_edges, all_pairs. rewrite list_prod_map, filter_concat, map_map.
  assert (Sj : shape n n (inj C)) by (apply shape_inj; exact S).
  destruct Sj as [L F]. rewrite L. f_equal. apply map_ext_in. intros i Hi. apply in_seq in Hi.
  rewrite filter_map_pair. f_equal.
  assert (Lr : length (nth i (inj C) []) = n).
  { apply (proj1 (Forall_forall _ _) F), nth_In. rewrite L. lia. }
  rewrite Lr. apply filter_ext_in. intros j Hj. apply in_seq in Hj. cbn [fst snd]. rewrite (nth_inj n) by (auto; lia). f_equal.
  destruct (Nat.eqb_spec i j) as [->|N].
  - apply neqb_zero_iff, D. lia.
  - destruct (neqb _ _) eqn:Q; [|reflexivity]. apply neqb_zero_iff in Q. exfalso. apply (O i j); auto; lia.
Qed.

(** The cost of an edge is a draw: that of its own cell or, in the symmetric case, that of the cell above
    the diagonal.  The matrix satisfies the condition of the theorems on TSP calls, and the list of edges
    is that of the complete graph, row by row. *)
Theorem C67_tsp_matrix : forall n symmetric U,
  shape n n U -> (forall i j, i < n -> j < n -> qat U i j <> 0%Qc) ->
  exists C, create_cost_matrix symmetric (inj U) = (inj C, all_pairs n)
    /\ cost_matrix_ok n C
    /\ (forall i j, i < n -> j < n -> i <> j ->
          qat C i j = if symmetric then qat U (min i j) (max i j) else qat U i j)
    /\ (symmetric = true -> forall i j, i < n -> j < n -> qat C i j = qat C j i).
Proof.
  intros n sym U S Nz.
  set (g := fun i j => if sym then qat U (min i j) (max i j) else qat U i j).
  set (C := table n (fun i j => if i =? j then 0%Qc else g i j)).
  assert (Q : forall i j, i < n -> j < n -> qat C i j = if i =? j then 0%Qc else g i j).
  { intros i j Hi Hj. unfold qat, C. now rewrite table_nth. }
  assert (Ok : cost_matrix_ok n C).
  { split; [apply table_shape|]. split.
    - intros u Hu. now rewrite Q, Nat.eqb_refl.
    - intros u v Hu Hv N. rewrite Q by auto. destruct (Nat.eqb_spec u v); [contradiction|]. unfold g.
      destruct sym; apply Nz; lia. }
  assert (Lu : length (inj U) = n) by (unfold inj; rewrite map_length; apply S).
  assert (M : (if sym then fill_diagonal (zip_with (zip_with nadd) (triu 0 (inj U)) (transposed (triu 1 (inj U)))) n0
               else fill_diagonal (inj U) n0) = inj C).
  { unfold C. rewrite table_inj. destruct sym.
    - unfold triu, transposed. rewrite !table_length, Lu, table_zip. unfold fill_diagonal. rewrite table_length.
      apply table_ext. intros i j Hi Hj. destruct (Nat.eqb_spec i j) as [|N]; [reflexivity|].
      unfold entry_at. rewrite !table_nth by auto. unfold entry_at. rewrite !(nth_inj n) by auto. unfold g.
      destruct (Nat.lt_ge_cases i j) as [H|H].
      + rewrite Nat.min_l, Nat.max_r by lia.
        destruct (Nat.leb_spec (i + 0) j); [|lia]. destruct (Nat.leb_spec (j + 1) i); [lia|]. cbn. f_equal. ring.
      + rewrite Nat.min_r, Nat.max_l by lia.
        destruct (Nat.leb_spec (i + 0) j); [lia|]. destruct (Nat.leb_spec (j + 1) i); [|lia]. cbn. f_equal. ring.
    - unfold fill_diagonal. rewrite Lu. apply table_ext. intros i j Hi Hj. destruct (i =? j); [reflexivity|].
      unfold entry_at. now rewrite (nth_inj n). }
  exists C. split; [unfold create_cost_matrix; rewrite M, (edges_all_pairs n) by exact Ok; reflexivity|].
  split; [exact Ok|]. split.
  - intros i j Hi Hj N. rewrite Q by auto. destruct (Nat.eqb_spec i j); [contradiction|reflexivity].
  - intros -> i j Hi Hj. rewrite !Q by auto. rewrite (Nat.eqb_sym j i). destruct (i =? j); [reflexivity|].
    unfold g. now rewrite Nat.min_comm, Nat.max_comm.
Qed.

(** Reading a generated file gives the object that the solver would have drawn itself: its options and
    the draws it makes meanwhile have no influence. *)
Theorem C67_tsp_file : forall n symmetric upper n' symmetric' upper' any,
  initialize_tsp false n' symmetric' (tsp_file n symmetric (upper n)) upper' =
  initialize_tsp true n symmetric any upper.
Proof.
  intros. unfold initialize_tsp, tsp_file. destruct (create_cost_matrix symmetric (upper n)) as [m e] eqn:E.
  cbn [as_int as_flag as_matrix as_pairs get nth_error bind]. rewrite E. reflexivity.
Qed.

(** The library call of an object, drawn or read, is the call for its cost matrix: all theorems about
    [py_run_tsp] apply.  In particular nothing fails before the call. *)
Theorem C67_tsp_call : forall n symmetric U any,
  shape n n U -> (forall i j, i < n -> j < n -> qat U i j <> 0%Qc) ->
  exists w C, initialize_tsp true n symmetric any (fun _ => inj U) = Some w
    /\ w_nodes w = n /\ w_matrix w = inj C /\ cost_matrix_ok n C /\ w_edges w = all_pairs n
    /\ (forall i u v, nth_error (w_edges w) i = Some (u, v) -> nth_error (w_cost_edge w) i = Some (Fin (qat C u v)))
    /\ length (w_cost_edge w) = n * n - n
    /\ forall fuel o ord, run_tsp_object fuel o w ord = py_run_tsp fuel o n (inj C) ord.
Proof.
  intros n sym U any S Nz. destruct (C67_tsp_matrix n sym U S Nz) as (C & E & Ok & _).
  pose proof (py_edges_complete n C Ok) as Co. pose proof (edges_all_pairs n C Ok) as Ee.
  unfold initialize_tsp. cbn [bind]. rewrite E. cbn [bind]. rewrite <- Ee in *.
  destruct (py_arrays_ok n C (py_edges (inj C))) as (c & M & Ea & Lc & SM & Ec & _).
  - apply Ok.
  - exact (complete_edges_in _ _ Co).
  - apply Forall_forall. intros (u & v) H. apply Co in H. cbn. tauto.
  - exact (complete_length _ _ Co).
  - rewrite Ea. cbn [bind]. eexists _, C. split; [reflexivity|]. cbn [w_nodes w_matrix w_edges w_cost_edge].
    split; [reflexivity|]. split; [reflexivity|]. split; [exact Ok|]. split; [reflexivity|]. split; [|split].
    + intros i u v H. rewrite Ec, map_map. exact (map_nth_error (fun e => Fin (qat C (fst e) (snd e))) _ _ H).
    + rewrite map_length, Lc. exact (complete_length _ _ Co).
    + intros fuel o ord. unfold run_tsp_object, py_run_tsp. rewrite Ea. reflexivity.
Qed.

Definition u67 : list (list Qc) := map (map (fun z => Q2Qc (inject_Z z)))
  [[5; 7; 3; 2]; [4; 9; 6; 8]; [1; 2; 3; 4]; [5; 6; 7; 8]]%Z.
Lemma u67_ok : shape 4 4 u67 /\ forall i j, i < 4 -> j < 4 -> qat u67 i j <> 0%Qc.
Proof.
  split; [repeat constructor|]. intros i j Hi Hj.
  destruct i as [|[|[|[|i]]]], j as [|[|[|[|j]]]]; try lia; intros Q; vm_compute in Q; discriminate.
Qed.
Definition show (m : list (list num)) : list (list Z) :=
  map (map (fun x => match x with Fin q => Qnum (this q) | _ => 99%Z end)) m.
Example C67_example :
  show (fst (create_cost_matrix true (inj u67))) = [[0; 7; 3; 2]; [7; 0; 6; 8]; [3; 6; 0; 4]; [2; 8; 4; 0]]%Z /\
  show (fst (create_cost_matrix false (inj u67))) = [[0; 7; 3; 2]; [4; 0; 6; 8]; [1; 2; 0; 4]; [5; 6; 7; 0]]%Z /\
  snd (create_cost_matrix true (inj u67)) =
    [(0, 1); (0, 2); (0, 3); (1, 0); (1, 2); (1, 3); (2, 0); (2, 1); (2, 3); (3, 0); (3, 1); (3, 2)] /\
  option_map (fun w => (w_nodes w, w_symmetric w, show [w_cost_edge w]))
    (initialize_tsp false 9 true (tsp_file 4 false (inj u67)) (fun _ => [])) =
    Some (4, false, [[7; 3; 2; 4; 6; 8; 1; 2; 4; 5; 6; 7]]%Z).
Proof. repeat split; vm_compute; reflexivity. Qed.
(** A zero draw is not an edge (the draws of the code are at least 1) *)
Example C67_zero :
  snd (create_cost_matrix true (inj [[1; 0]; [1; 1]]%Qc)) = [].
Proof. vm_compute. reflexivity. Qed.

(** ** C68: K-SAT *)

(** The mean of the metric of a variable, by type: towards the planted value, a random side, zero *)
Definition mean_of (type : nat) (var : Qc) (value sign : bool) (mean : Qc) : Prop :=
  match type with
  | 1 => mean = if value then (- (var / (1 + 1)))%Qc else (var / (1 + 1))%Qc
  | 0 => mean = if sign then (var / (1 + 1))%Qc else (- (var / (1 + 1)))%Qc
  | 2 => mean = 0%Qc
  | _ => False
  end.

Lemma upd_middle {A} (a : list A) x b v : upd (a ++ x :: b) (length a) v = a ++ v :: b.
Proof. induction a; cbn; congruence. Qed.
Lemma fill_loop nv body (w : nat -> num) :
  (forall i m, i < nv -> body m i = set m i (w i)) ->
  for_up 0 nv (repeat n0 nv) body = Some (map w (seq 0 nv)).
Proof.
  intros H.
  destruct (for_up_ind 0 nv (repeat n0 nv) body
    (fun k m => m = map w (seq 0 k) ++ repeat n0 (nv - k))) as (m & E & ->).
  - lia.
  - now rewrite Nat.sub_0_r.
  - intros k m (_ & Hk) ->. rewrite H by exact Hk.
    replace (nv - k) with (S (nv - (k + 1))) by lia. cbn [repeat].
    rewrite set_lt by (rewrite app_length, map_length, seq_length; cbn; lia). eexists. split; [reflexivity|].
    rewrite Nat.add_1_r, seq_S, map_app, <- app_assoc. cbn [map app Nat.add].
    pose proof (upd_middle (map w (seq 0 k)) n0 (repeat n0 (nv - S k)) (w k)) as Q.
    rewrite map_length, seq_length in Q. exact Q.
  - rewrite E, Nat.sub_diag. cbn [repeat]. now rewrite app_nil_r.
Qed.

(** One metric per variable, each the mean of its type plus the deviation that was drawn *)
Theorem C68_metrics : forall nv type var sol draws,
  length sol = nv -> 0 < nv -> nv <= length draws -> type <= 2 ->
  exists ms, generate_metrics nv type var sol draws = Some (map Fin ms) /\ length ms = nv
    /\ forall i t d, nth_error sol i = Some t -> nth_error draws i = Some d ->
         exists mean, mean_of type var t (e_sign d) mean /\ nth_error ms i = Some (mean + e_dev d)%Qc.
Proof.
  intros nv type var sol draws Ls Hn Ld Ht.
  set (mu := fun (t s : bool) => match type with
    | 1 => if t then (- (var / (1 + 1)))%Qc else (var / (1 + 1))%Qc
    | 0 => if s then (var / (1 + 1))%Qc else (- (var / (1 + 1)))%Qc
    | _ => 0%Qc end).
  set (w := fun i => let t := nth i sol false in let d := nth i draws {| e_sign := false; e_dev := 0%Qc |} in
    (mu t (e_sign d) + e_dev d)%Qc).
  exists (map w (seq 0 nv)). split; [|split].
  - unfold generate_metrics. 
    assert (Em : forall (a b : option (list num)), match sol with [] => a | _ => b end = b).
    { clear -Ls Hn. intros a b. destruct sol; [cbn in Ls; lia|reflexivity]. }
    rewrite Em, Ls, (fill_loop nv _ (fun i => Fin (w i))); [now rewrite map_map|].
    intros i m Hi. destruct (get_lt sol i) as (t & E1); [lia|]. destruct (get_lt draws i) as (d & E2); [lia|].
    rewrite E1, E2. cbn [bind]. assert (Q : one_metric type var (Some t) d = Fin (w i)); [|now rewrite Q].
    cbv zeta beta delta [w]. rewrite (nth_error_nth _ _ _ E1), (nth_error_nth _ _ _ E2).
    unfold one_metric, mu, half. destruct type as [|[|[|type]]]; [..|lia]; cbn; try reflexivity.
    f_equal. f_equal. destruct (e_sign d); ring.
  - now rewrite map_length, seq_length.
  - intros i t d E1 E2. assert (Hi : i < nv) by (rewrite <- Ls; apply nth_error_Some; congruence).
    exists (mu t (e_sign d)). split.
    + unfold mean_of, mu. destruct type as [|[|[|type]]]; [reflexivity..|lia].
    + rewrite (map_nth_error w i (seq 0 nv) (d := i)).
      * unfold w. now rewrite (nth_error_nth _ _ _ E1), (nth_error_nth _ _ _ E2).
      * rewrite (nth_error_nth' (seq 0 nv) 0) by (rewrite seq_length; exact Hi). now rewrite seq_nth.
Qed.

(** Metrics of type 1 point to the planted assignment: as long as every deviation is smaller than half
    the variance, the threshold decision on the metrics alone is the planted assignment, and it
    satisfies every clause of the instance drawn with it. *)
Theorem C68_planted : forall nv k var ord x,
  1 <= k -> length (x_sol x) = nv -> 0 < nv -> nv <= length (x_metrics x) ->
  Forall (valid_draw nv k) (x_clauses x) -> (forall l, Permutation l (ord l)) ->
  Forall (fun d => (- (var / (1 + 1)) < e_dev d)%Qc /\ (e_dev d < var / (1 + 1))%Qc) (x_metrics x) ->
  exists f metrics, create_model nv k 1 var ord x = Some (f, metrics)
    /\ map (py_decide n0) metrics = planted (x_sol x)
    /\ forall c, c < y_nc f -> clause_true f (map (py_decide n0) metrics) c.
Proof.
  intros nv k var ord x Hk Ls Hn Ld Hd P Hv.
  destruct (C68_metrics nv 1 var (x_sol x) (x_metrics x)) as (ms & E & L & H); auto.
  destruct (C35_generated_partial nv k (length (x_clauses x)) (x_sol x) ord (x_clauses x)) as (f & Ef & _ & _ & _ & _ & _ & T & _); auto.
  exists f, (map Fin ms). unfold create_model. rewrite E, Ef. cbn [bind]. split; [reflexivity|].
  assert (Q : map (py_decide n0) (map Fin ms) = planted (x_sol x)); [|rewrite Q; auto].
  unfold planted. apply list_ext_get; [rewrite !map_length; lia|]. rewrite !map_length. intros i Hi. unfold get. rewrite !nth_error_map.
  destruct (nth_error (x_sol x) i) as [t|] eqn:E1; [|apply nth_error_None in E1; lia].
  destruct (nth_error (x_metrics x) i) as [d|] eqn:E2; [|apply nth_error_None in E2; lia].
  destruct (H i t d E1 E2) as (mean & M & ->). cbn [option_map]. f_equal.
  pose proof (proj1 (Forall_forall _ _) Hv d (nth_error_In _ _ E2)) as (V1 & V2). cbn [mean_of] in M. subst mean.
  unfold py_decide, n0, nleb, ngt, nlt, bit. revert V1 V2. generalize (var / (1 + 1))%Qc. intros h V1 V2. destruct t.
  - assert (Q : qltb 0%Qc (- h + e_dev d)%Qc = false) by (apply qltb_false; qlra). rewrite Q. reflexivity.
  - assert (Q : qltb 0%Qc (h + e_dev d)%Qc = true) by (apply qltb_true; qlra). rewrite Q. reflexivity.
Qed.

(** Reading a generated file gives the object that the solver would have drawn itself *)
Theorem C68_file : forall nv k type var ord x file z over ord' x' fresh any fresh',
  ksat_file nv k type var ord x = Some file -> z_overwrite z = false ->
  initialize_ksat false z file ord' x' fresh =
  initialize_ksat true {| z_nv := nv; z_k := k; z_type := type; z_var := var; z_overwrite := over |} any ord x fresh'.
Proof.
  intros nv k type var ord x file z over ord' x' fresh any fresh' H Z. unfold ksat_file in H.
  destruct (create_model nv k type var ord x) as [[f metrics]|] eqn:E; [|discriminate]. cbn [bind] in H.
  assert (L : y_nc f = length (y_conx f)).
  { unfold create_model in E. destruct (generate_metrics _ _ _ _ _); [|discriminate]. cbn [bind] in E.
    destruct (create_formula _ _ _ _ _) as [f'|] eqn:Ef; [|discriminate]. cbn [bind] in E. injection E as -> _.
    unfold create_formula in Ef. destruct (foldM _ _ _); [|discriminate]. injection Ef as <-. reflexivity. }
  injection H as <-. unfold initialize_ksat. cbn [z_nv z_k z_type z_var]. rewrite E, Z. cbn [bind].
  cbn [as_int as_assignment as_rows as_signs as_nums as_indices get nth_error bind].
  rewrite <- L. destruct f. reflexivity.
Qed.
(** Overwriting keeps the formula and the assignment and gives the object that would have been drawn with
    the new type, variance and draws.  If no assignment is stored and the new type is 1 it fails. *)
Theorem C68_overwrite : forall nv k type var ord x file z over ord' x' fresh any fresh',
  ksat_file nv k type var ord x = Some file -> z_overwrite z = true ->
  initialize_ksat false z file ord' x' fresh =
  initialize_ksat true {| z_nv := nv; z_k := k; z_type := z_type z; z_var := z_var z; z_overwrite := over |} any ord
    {| x_sol := x_sol x; x_metrics := fresh; x_clauses := x_clauses x |} fresh'.
Proof.
  intros nv k type var ord x file z over ord' x' fresh any fresh' H Z. unfold ksat_file, create_model in H.
  destruct (generate_metrics nv type var (x_sol x) (x_metrics x)) as [metrics|]; [|discriminate]. cbn [bind] in H.
  destruct (create_formula nv k (x_sol x) ord (x_clauses x)) as [f|] eqn:Ef; [|discriminate]. cbn [bind] in H.
  assert (L : y_nc f = length (y_conx f)).
  { unfold create_formula in Ef. destruct (foldM _ _ _); [|discriminate]. injection Ef as <-. reflexivity. }
  injection H as <-. unfold initialize_ksat, create_model. cbn [z_nv z_k z_type z_var x_sol x_metrics x_clauses].
  rewrite Ef, Z. cbn [as_int as_assignment as_rows as_signs as_nums as_indices get nth_error bind].
  destruct (generate_metrics nv (z_type z) (z_var z) (x_sol x) fresh) as [ms|]; [|reflexivity].
  cbn [bind]. rewrite <- L. destruct f. reflexivity.
Qed.

(** The complete path from the draws to the result: the object exists and its run is the run that C47
    describes, so the reported result is true of the reported assignment.  With C68_file and
    C68_overwrite this also holds for stored instances. *)
Theorem C68_call : forall nv k type var over ord x any fresh iters flag alpha thr post_process pp ord2 ord3,
  2 <= k -> length (x_sol x) = nv -> 0 < nv -> nv <= length (x_metrics x) -> type <= 2 ->
  Forall (valid_draw nv k) (x_clauses x) -> (forall l, Permutation l (ord l)) ->
  (forall l, Permutation l (ord2 l)) -> (forall l, Permutation l (ord3 l)) ->
  exists v o,
    initialize_ksat true {| z_nv := nv; z_k := k; z_type := type; z_var := var; z_overwrite := over |} any ord x fresh = Some v
    /\ consistent nv (v_formula v)
    /\ run_ksat_object iters flag (Fin alpha) thr post_process pp ord2 ord3 v
       = py_ksat_run nv k (x_sol x) ord (x_clauses x) (v_metrics v) iters flag (Fin alpha) thr post_process pp ord2 ord3
    /\ option_map snd (run_ksat_object iters flag (Fin alpha) thr post_process pp ord2 ord3 v) = Some o
    /\ (k_flag o = true <-> forall c, c < y_nc (v_formula v) -> clause_true (v_formula v) (k_hd o) c).
Proof.
  intros nv k type var over ord x any fresh iters flag alpha thr post pp ord2 ord3 Hk Ls Hn Ld Ht Hd P1 P2 P3.
  destruct (C68_metrics nv type var (x_sol x) (x_metrics x)) as (ms & E & L & _); auto.
  destruct (C47_ksat_call nv k (x_sol x) ord ord2 ord3 (x_clauses x) ms iters flag alpha thr post pp)
    as (f & ext & intr & o & R & W & _ & _ & _ & _ & _ & _ & Fl); auto.
  destruct (create_formula nv k (x_sol x) ord (x_clauses x)) as [f'|] eqn:Ef; [|unfold py_ksat_run in R; rewrite Ef in R; discriminate].
  assert (f' = f).
  { unfold py_ksat_run in R. rewrite Ef in R. cbn [bind] in R. destruct (initial_messages _ _ _); [|discriminate]. cbn [bind] in R.
    destruct (wrapper_ksat _ _ _ _ _ _ _ _ _ _ _ _ _ _); [|discriminate]. cbn [bind] in R.
    destruct (py_ksat_finish _ _ _ _ _ _ _ _); [|discriminate]. cbn [bind] in R. congruence. }
  subst f'. unfold initialize_ksat, create_model. cbn [z_nv z_k z_type z_var]. rewrite E, Ef. cbn [bind].
  destruct (initial_messages nv f (map Fin ms)) as [m|] eqn:Em; [|unfold py_ksat_run in R; rewrite Ef in R; cbn [bind] in R; rewrite Em in R; discriminate].
  cbn [bind]. eexists _, o. split; [reflexivity|]. cbn [v_formula v_metrics]. split; [exact W|].
  assert (Q : forall fl, run_ksat_object iters flag (Fin alpha) thr post pp ord2 ord3
     {| v_nv := nv; v_k := k; v_type := fl; v_sol := x_sol x; v_formula := f; v_metrics := map Fin ms;
        v_messages := m; v_nused := length (y_used f); v_sizes := map (@length nat) (y_vconx f) |}
     = py_ksat_run nv k (x_sol x) ord (x_clauses x) (map Fin ms) iters flag (Fin alpha) thr post pp ord2 ord3).
  { intros fl. unfold run_ksat_object, py_ksat_run. cbn [v_nv v_k v_formula v_metrics v_messages v_nused v_sizes].
    rewrite Ef. cbn [bind]. rewrite Em. reflexivity. }
  split; [apply Q|]. rewrite Q, R. split; [reflexivity|exact Fl].
Qed.

Definition x68 : ksat_draws := {| x_sol := [true; false; true; false];
  x_metrics := map (fun z => {| e_sign := (z <? 0)%Z; e_dev := Q2Qc (inject_Z z) |}) [1; -2; 0; 4]%Z;
  x_clauses := [d2 0 0 true; d2 1 1 false; d2 2 2 true; d2 3 0 false] |}.
Lemma x68_valid : Forall (valid_draw 4 2) (x_clauses x68).
Proof.
  repeat constructor; cbn; try lia; intros [|[|j]] i s H; try discriminate; cbn in H; injection H as <- <-; lia.
Qed.
Definition v10 : Qc := Q2Qc 10.
Definition shown (type : nat) : option (list (list Z)) :=
  option_map (fun r => show [snd r]) (create_model 4 2 type v10 (fun l => l) x68).
Example C68_example :
  shown 1 = Some [[-4; 3; -5; 9]]%Z /\ shown 0 = Some [[-4; 3; -5; -1]]%Z /\ shown 2 = Some [[1; -2; 0; 4]]%Z /\
  shown 3 = Some [[0; 0; 0; 0]]%Z /\
  option_map (fun r => map (py_decide n0) (snd r)) (create_model 4 2 1 v10 (fun l => l) x68) = Some [n1; n0; n1; n0].
Proof. repeat split; vm_compute; reflexivity. Qed.
Definition z68 (type : nat) (over : bool) : ksat_opts :=
  {| z_nv := 7; z_k := 3; z_type := type; z_var := v10; z_overwrite := over |}.
Definition reread (type : nat) (over : bool) (sol : list bool) : option (nat * nat * nat * list (list Z)) :=
  file <- ksat_file 4 2 2 v10 (fun l => l) x68 ;;
  option_map (fun v => (v_nv v, v_k v, v_type v, show [v_metrics v]))
    (initialize_ksat false (z68 type over) (firstn 10 file ++ [EAssignment sol]) (fun l => l) x68 (rev (x_metrics x68))).
Example C68_reread :
  reread 1 false (x_sol x68) = Some (4, 2, 2, [[1; -2; 0; 4]]%Z) /\
  reread 1 true (x_sol x68) = Some (4, 2, 1, [[-1; 5; -7; 6]]%Z) /\
  reread 2 true [] = Some (4, 2, 2, [[4; 0; -2; 1]]%Z) /\
  reread 1 true [] = None.
Proof. repeat split; vm_compute; reflexivity. Qed.

Print Assumptions C67_tsp_matrix.
Print Assumptions C67_tsp_file.
Print Assumptions C67_tsp_call.
Print Assumptions C68_metrics.
Print Assumptions C68_planted.
Print Assumptions C68_file.
Print Assumptions C68_overwrite.
Print Assumptions C68_call.
