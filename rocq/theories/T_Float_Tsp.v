(** * TSP runs in floating-point arithmetic: C72. *)
From Verif Require Import Num NumFacts Arr ArrFacts SpecRound P_Round M_InOut M_Runs M_Tsp_Run M_Tsp_Py
  T_Tsp_Call M_Float P_Float P_Float_Tsp.
Local Open Scope nat_scope.

(** The other theorems are about exact arithmetic.  Here [rnd] rounds the result of every addition,
    subtraction and multiplication; of [rnd] it is only assumed that it leaves the numbers of the
    format alone ([keeps (binary prec emin emax) rnd], SpecRound.v); [binary 53 (-1074) 971] is
    [double], the type of common.hpp 32.  [py_run_tsp_f rnd] is the call of the
    library in that arithmetic (M_Float.v). *)

(** A matrix of whole multiples of 2^e *)
Definition grid (e : Z) (M : list (list Z)) : list (list num) :=
  map (map (fun z => Fin (zq z * pow2 e)%Qc)) M.
Definition at_most (C : Z) (M : list (list Z)) : Prop := Forall (Forall (fun z => (Z.abs z <= C)%Z)) M.
Definition filtering_off (o : tsp_options) : Prop := q_filt o = false \/ q_alpha o = n0.
(** the call and the state it ends in *)
Definition solved (fuel : nat) (o : tsp_options) (n : nat) (cm : list (list num)) (ord : list nat -> list nat)
  : option outcome := p <- py_call o n cm ord ;; tsp_solve fuel p (q_max_augm o).
Definition solved_f (rnd : Qc -> num) (fuel : nat) (o : tsp_options) (n : nat) (cm : list (list num))
  (ord : list nat -> list nat) : option outcome :=
  p <- py_call o n cm ord ;; tsp_solve_f rnd fuel p (q_max_augm o).

(** ** Reading the inputs *)
Lemma exact_binary prec emin emax rnd e : keeps (binary prec emin emax) rnd -> (emin <= e <= emax)%Z ->
  exact_upto (pow2 e) (2 ^ prec - 1) rnd.
Proof. intros H He z Hz. apply H. exists z, e. split; [lia|]. split; [exact He | reflexivity]. Qed.
Lemma grid_on e C M : at_most C M -> mat (on (pow2 e) C) (grid e M).
Proof.
  intros H. unfold grid. apply Forall_map. eapply Forall_impl; [|exact H]. intros r Hr.
  apply Forall_map. eapply Forall_impl; [|exact Hr]. intros z Hz. exists z. auto.
Qed.
Lemma slice_on {A} (P : A -> Prop) buf lo hi r : Forall P buf -> slice buf lo hi = Some r -> Forall P r.
Proof.
  intros H. unfold slice. destruct ((lo <=? hi) && (hi <=? length buf)); [|discriminate].
  intros [= <-]. apply Forall_firstn, Forall_skipn. exact H.
Qed.
Lemma mapM_all {A B} (P : B -> Prop) (f : A -> option B) : forall l r, mapM f l = Some r ->
  (forall a b, f a = Some b -> P b) -> Forall P r.
Proof.
  induction l as [|a l IH]; intros r; cbn [mapM]; [intros [= <-] _; constructor|].
  destruct (f a) as [b|] eqn:E; [|discriminate]. cbn [bind].
  destruct (mapM f l) as [bs|]; [|discriminate]. cbn [bind]. intros [= <-] H.
  constructor; [apply (H a b E)|]. apply IH; auto.
Qed.
Lemma read_rows_on {A} (P : A -> Prop) d n k buf r : P d -> Forall P buf ->
  read_rows d n k buf = Some r -> mat P r.
Proof.
  intros Hd Hb R. unfold read_rows in R. apply (mapM_all (Forall P) _ _ _ R).
  intros i row. destruct (slice buf (k * i) (k * (i + 1))) as [s|] eqn:E; [|discriminate]. cbn [bind].
  intros Hc. destruct (same_copy P s (repeat d k)) as [_ F]; [exact (slice_on P _ _ _ _ Hb E) | apply Forall_repeat, Hd|].
  exact (F _ Hc).
Qed.
Lemma arrays_on u C n cm E ce m : (0 <= C)%Z -> mat (on u C) cm -> py_tsp_arrays n cm E = Some (ce, m) ->
  Forall (on u C) ce /\ mat (on u C) m.
Proof.
  intros HC Hc R.
  assert (S : same (fun st => Forall (on u C) (fst st) /\ mat (on u C) (snd st))
                (py_tsp_arrays n cm E) (py_tsp_arrays n cm E)).
  { unfold py_tsp_arrays. apply same_for.
    - split; [apply Forall_repeat, on_0, HC | apply mat_zeros; exact HC].
    - intros i [c0 m0] _ [H1 H2]. cbn [fst snd] in *.
      apply same_bind with (P := fun _ => True); [apply same_any|]. intros [a b] _.
      apply same_bind with (P := on u C); [apply same_get2; exact Hc|]. intros c Hcc.
      apply same_bind with (P := Forall (on u C)); [apply same_set; auto|]. intros c1 H3.
      apply same_bind with (P := mat (on u C)); [apply same_set2; auto|]. intros m1 H4.
      apply same_bind with (P := mat (on u C)); [apply same_set2; auto|]. intros m2 H5.
      apply same_ret; [reflexivity | auto]. }
  destruct S as [_ F]. exact (F _ R).
Qed.
Lemma Forall_concat' {A} (P : A -> Prop) m : mat P m -> Forall P (concat m).
Proof. intros H. induction H; cbn; [constructor|]. apply Forall_app. auto. Qed.
Lemma call_inputs u C o n cm ord p : (0 <= C)%Z -> mat (on u C) cm -> py_call o n cm ord = Some p ->
  inputs_on u p C /\ p_n p = n /\ p_e p = py_num_edges n /\ p_iters p = q_iters o /\ p_aug p = q_aug o
  /\ p_filt p = q_filt o /\ p_alpha p = q_alpha o.
Proof.
  intros HC Hc. unfold py_call. destruct (py_tsp_arrays n cm (py_edges cm)) as [[ce m]|] eqn:A; [|discriminate].
  cbn [bind]. destruct (arrays_on u C _ _ _ _ _ HC Hc A) as [A1 A2].
  unfold tsp_process_inputs.
  destruct (slice ce 0 (py_num_edges n)) as [ce'|] eqn:E1; [|discriminate]. cbn [bind].
  destruct (read_rows 0 (py_num_edges n) 2 (flat_edges (py_edges cm))) as [rows|]; [|discriminate]. cbn [bind].
  destruct (mapM pair_of rows) as [es|]; [|discriminate]. cbn [bind].
  destruct (read_rows n0 (py_num_edges n) n (concat m)) as [m'|] eqn:E2; [|discriminate]. cbn [bind].
  destruct (read_rows n0 n n (concat cm)) as [cm'|] eqn:E3; [|discriminate]. cbn [bind].
  intros [= <-]. cbn. repeat split.
  - exact (slice_on _ _ _ _ _ A1 E1).
  - apply (read_rows_on _ _ _ _ _ _ (on_0 u C HC) (Forall_concat' _ _ Hc) E3).
  - apply (read_rows_on _ _ _ _ _ _ (on_0 u C HC) (Forall_concat' _ _ A2) E2).
  - apply (read_rows_on _ _ _ _ _ _ (on_0 u C HC) (Forall_concat' _ _ A2) E2).
Qed.
Lemma off_unfiltered p o : p_filt p = q_filt o -> p_alpha p = q_alpha o -> filtering_off o -> tsp_unfiltered p.
Proof.
  intros E1 E2 H. unfold tsp_unfiltered, unfiltered. rewrite E1, E2.
  destruct H as [-> | ->]; [reflexivity|]. destruct (q_filt o); reflexivity.
Qed.
Lemma run_eq_f rnd fuel o n cm ord : py_run_tsp_f rnd fuel o n cm ord =
  (p <- py_call o n cm ord ;;
   out <- tsp_solve_f rnd fuel p (q_max_augm o) ;;
   match out with
   | Returned st => r <- py_outputs n p st ;; Some (Done r)
   | Exited => Some Killed
   | Running _ => Some Unfinished
   end).
Proof.
  unfold py_run_tsp_f, py_call, wrapper_tsp_f.
  destruct (py_tsp_arrays _ _ _) as [(ce & m)|]; cbn [bind]; [|reflexivity].
  destruct (tsp_process_inputs _ _ _ _ _ _ _) as [inp|]; cbn [bind]; reflexivity.
Qed.
Lemma runs_from_solves rnd fuel o n cm ord :
  (forall p, py_call o n cm ord = Some p ->
     tsp_solve_f rnd fuel p (q_max_augm o) = tsp_solve fuel p (q_max_augm o)) ->
  solved_f rnd fuel o n cm ord = solved fuel o n cm ord
  /\ py_run_tsp_f rnd fuel o n cm ord = py_run_tsp fuel o n cm ord.
Proof.
  intros H. rewrite run_eq_f, py_run_eq. unfold solved_f, solved.
  destruct (py_call o n cm ord) as [p|]; [|split; reflexivity]. cbn [bind]. rewrite (H p eq_refl). auto.
Qed.

(** ** C72 *)

(** Without augmentation and filtering, and with costs that are whole multiples of some power of
    two, the call in floating-point arithmetic is the exact call: the same outputs, selection and
    tours, as long as [n * (iterations + 1) + 1] times the largest cost, and [n^2] times the largest
    cost, fit into the significand. *)
Theorem C72_relaxed : forall prec emin emax rnd e C M fuel o n ord,
  keeps (binary prec emin emax) rnd -> (emin <= e <= emax)%Z -> (0 <= C)%Z -> at_most C M ->
  filtering_off o -> q_aug o = false -> 0 < n ->
  ((Z.of_nat n * (Z.of_nat (q_iters o) + 1) + 1) * C < 2 ^ prec)%Z ->
  (Z.of_nat n * Z.of_nat n * C < 2 ^ prec)%Z ->
  solved_f rnd fuel o n (grid e M) ord = solved fuel o n (grid e M) ord
  /\ py_run_tsp_f rnd fuel o n (grid e M) ord = py_run_tsp fuel o n (grid e M) ord.
Proof.
  intros prec emin emax rnd e C M fuel o n ord Hr He HC HM Hf Ha Hn0 L1 L2. apply runs_from_solves. intros p Hp.
  destruct (call_inputs (pow2 e) C o n _ ord p HC (grid_on e C M HM) Hp) as (Hi & En & Ee & Et & Ea & E1 & E2).
  assert (Hn : (Z.of_nat (p_e p) <= Z.of_nat n * Z.of_nat n)%Z)
    by (rewrite Ee; unfold py_num_edges; nia).
  eapply (solve_relaxed_same (pow2 e) (2 ^ prec - 1) rnd) with (T := (Z.of_nat (q_iters o) + 1)%Z) (C := C);
    eauto using exact_binary, off_unfiltered; try congruence; try (rewrite ?Et, ?En; nia).
Qed.

(** With augmentation the number of rounds is not bounded by the options, so the bound is on the
    exact run: its messages stay within [B] units and at most [K] subtour constraints are added. *)
Definition stays_within (e B : Z) (K : nat) (o : tsp_options) (n : nat) (cm : list (list num))
  (ord : list nat -> list nat) : Prop :=
  forall p fuel st t m0 m, py_call o n cm ord = Some p ->
  tsp_solve fuel p (q_max_augm o) = Some (Running st) -> t <= q_iters o ->
  start_round p st = Some m0 -> for_up 0 t m0 (augmented_step p (a_deltas (t_an st))) = Some m ->
  length (m_sub m) <= K /\ messages (small (pow2 e) B) m.

Theorem C72_augmented : forall prec emin emax rnd e B C K M fuel o n ord,
  keeps (binary prec emin emax) rnd -> (emin <= e <= emax)%Z -> (0 <= C)%Z -> at_most C M ->
  filtering_off o -> 0 < n ->
  ((Z.of_nat n * (Z.of_nat (q_iters o) + 1) + 1) * C < 2 ^ prec)%Z ->
  (Z.of_nat n * Z.of_nat n * C < 2 ^ prec)%Z ->
  stays_within e B K o n (grid e M) ord -> (C <= B)%Z ->
  ((Z.of_nat K + 3) * (Z.of_nat K + 3) * B < 2 ^ prec)%Z ->
  ((Z.of_nat n + Z.of_nat K + 1) * B < 2 ^ prec)%Z ->
  solved_f rnd fuel o n (grid e M) ord = solved fuel o n (grid e M) ord
  /\ py_run_tsp_f rnd fuel o n (grid e M) ord = py_run_tsp fuel o n (grid e M) ord.
Proof.
  intros prec emin emax rnd e B C K M fuel o n ord Hr He HC HM Hf Hn0 L1 L2 Hw HB L3 L4.
  apply runs_from_solves. intros p Hp.
  destruct (call_inputs (pow2 e) C o n _ ord p HC (grid_on e C M HM) Hp) as (Hi & En & Ee & Et & Ea & E1 & E2).
  assert (Hn : (Z.of_nat (p_e p) <= Z.of_nat n * Z.of_nat n)%Z)
    by (rewrite Ee; unfold py_num_edges; nia).
  eapply (solve_same (pow2 e) (2 ^ prec - 1) rnd) with (T := (Z.of_nat (q_iters o) + 1)%Z) (C := C) (B := B) (K := K);
    eauto using exact_binary, off_unfiltered, pow2_pos; try congruence; try (rewrite ?Et, ?En; nia).
  - unfold enough, grown, to_subtour. rewrite ?Et, ?En.
    assert (0 <= Z.of_nat K * (B - C))%Z by nia. assert (0 <= Z.of_nat K * B)%Z by nia.
    repeat split; nia.
  - intros f st R t m0 m Ht S0 S1. rewrite Et in Ht. exact (Hw p f st t m0 m Hp R Ht S0 S1).
Qed.

(** Costs beyond that bound: the claim fails.  Three nodes, no augmentation, no filtering; the
    significand of 2^53 + 1 has one bit too many, and after three iterations the selection is another. *)
Definition plain (iters : nat) (aug : bool) (max : Z) : tsp_options :=
  {| q_iters := iters; q_aug := aug; q_reset := true; q_filt := false; q_alpha := n0;
     q_thr := Fin (Q2Qc (-1 # 10000)); q_max_count := 20; q_max_augm := max |}.
Definition selection (o : option outcome) : option (list (nat * nat)) :=
  match o with Some (Returned st) => Some (r_selected (t_sol st)) | _ => None end.
Definition large3 : list (list Z) := [[0; 1; 1]; [1; 0; 1]; [2 ^ 53; 2 ^ 53; 0]]%Z.
Theorem C72_large_costs_refuted :
  ~ (forall rnd M fuel n ord, keeps double rnd -> Forall (Forall double) (map (map (fun z => zq z)) M) ->
       selection (solved_f rnd fuel (plain 3 false 0) n (grid 0 M) ord)
       = selection (solved fuel (plain 3 false 0) n (grid 0 M) ord)).
Proof.
  intros H. specialize (H ieee large3 5 3 (fun l => l) ieee_keeps).
  assert (D : Forall (Forall double) (map (map (fun z => zq z)) large3)).
  { repeat constructor.
    all: try (exists 0%Z, 0%Z; split; [lia|]; split; [lia|]; apply Qc_is_canon; reflexivity).
    all: try (exists 1%Z, 0%Z; split; [lia|]; split; [lia|]; apply Qc_is_canon; reflexivity).
    all: try (exists 1%Z, 53%Z; split; [lia|]; split; [lia|]; apply Qc_is_canon; reflexivity). }
  specialize (H D). vm_compute in H. discriminate H.
Qed.

(** ** Runs that meet the hypotheses *)

(** a run that has ended does not change with more fuel *)
Lemma loop_more p max : forall f g st o, augmentation_loop f p max st = Some o ->
  (forall s, o <> Running s) -> f <= g -> augmentation_loop g p max st = Some o.
Proof.
  induction f as [|f IH]; intros g st o H Ho Hg.
  - cbn in H. destruct g as [|g]; [exact H|]. cbn [augmentation_loop].
    destruct (negb _ && _ && _); [|exact H]. destruct (_ || _ || _); [exact H|].
    destruct (neqb _ _); [exact H|]. injection H as <-. exfalso. exact (Ho _ eq_refl).
  - destruct g as [|g]; [lia|]. cbn [augmentation_loop] in *.
    destruct (negb _ && _ && _); [|exact H]. destruct (_ || _ || _); [exact H|].
    destruct (neqb _ _); [exact H|]. destruct (iterate_augmented p st) as [[s| |s]|]; cbn [bind] in *; auto.
    destruct (_ =? _)%Z; [exact H|]. apply IH; auto. lia.
Qed.
Lemma solve_more p max f g o : tsp_solve f p max = Some o -> (forall s, o <> Running s) -> f <= g ->
  tsp_solve g p max = Some o.
Proof.
  unfold tsp_solve. destruct (iterate_relaxed p (tsp_init p)) as [st|]; [|discriminate]. cbn [bind].
  destruct (negb _ && _); [|auto]. unfold perform_augmentation. apply loop_more.
Qed.

(** the bound on the messages, decided *)
Definition small_b (b : Qc) (v : num) : bool :=
  match v with Fin q => Qle_bool (- b)%Qc q && Qle_bool q b | _ => true end.
Lemma small_dec u B v : small_b (zq B * u)%Qc v = true -> small u B v.
Proof.
  destruct v as [q| | |]; cbn; auto. intros H. apply Bool.andb_true_iff in H as [H1 H2].
  apply Qle_bool_iff in H1, H2. split; assumption.
Qed.
Definition mat_b (b : Qc) (m : list (list num)) : bool := forallb (forallb (small_b b)) m.
Lemma mat_dec u B m : mat_b (zq B * u)%Qc m = true -> mat (small u B) m.
Proof.
  intros H. apply Forall_forall. intros r Hr. apply Forall_forall. intros v Hv. apply small_dec.
  unfold mat_b in H. rewrite forallb_forall in H. specialize (H r Hr). rewrite forallb_forall in H. auto.
Qed.
Definition within_b (u : Qc) (B : Z) (K : nat) (m : tsp_msgs) : bool :=
  let b := (zq B * u)%Qc in
  (length (m_sub m) <=? K) && (mat_b b (m_e2d m) && (mat_b b (m_deg_dummy m) && (mat_b b (m_deg m)
   && (mat_b b (m_sub_dummy m) && mat_b b (m_sub m))))).
Lemma within_dec u B K m : within_b u B K m = true -> length (m_sub m) <= K /\ messages (small u B) m.
Proof.
  unfold within_b. rewrite !Bool.andb_true_iff. intros (H0 & H1 & H2 & H3 & H4 & H5).
  apply Nat.leb_le in H0. split; [exact H0|]. repeat split; apply mat_dec; assumption.
Qed.
Definition run_b (u : Qc) (B : Z) (K : nat) (p : tsp_params) (max : Z) (F : nat) : bool :=
  forallb (fun f => match tsp_solve f p max with
    | Some (Running st) => forallb (fun t =>
        match (m0 <- start_round p st ;; for_up 0 t m0 (augmented_step p (a_deltas (t_an st)))) with
        | Some m => within_b u B K m | None => true end) (seq 0 (S (p_iters p)))
    | _ => true end) (seq 0 F)
  && match tsp_solve F p max with Some (Running _) => false | _ => true end.
Lemma run_dec e B K o n cm ord p F : py_call o n cm ord = Some p -> p_iters p = q_iters o ->
  (exists out, tsp_solve F p (q_max_augm o) = Some out) ->
  run_b (pow2 e) B K p (q_max_augm o) F = true -> stays_within e B K o n cm ord.
Proof.
  intros Hp Hit [out Hout] H p' f st t m0 m Hp' R Ht S0 S1. rewrite Hp in Hp'. injection Hp' as <-.
  apply Bool.andb_true_iff in H as [H1 H2].
  destruct (le_lt_dec F f) as [L|L].
  - exfalso. rewrite Hout in H2.
    assert (No : forall s, out <> Running s) by (intros s ->; discriminate H2).
    rewrite (solve_more p _ F f out Hout No L) in R. injection R as ->. exact (No st eq_refl).
  - rewrite forallb_forall in H1. specialize (H1 f). rewrite R in H1.
    assert (I : In f (seq 0 F)) by (apply in_seq; lia). specialize (H1 I).
    rewrite forallb_forall in H1. specialize (H1 t). rewrite S0 in H1. cbn [bind] in H1. rewrite S1 in H1.
    apply within_dec. apply H1. apply in_seq. lia.
Qed.

(** five nodes, costs in eighths, 20 iterations: the tour found *)
Definition cost5 : list (list Z) :=
  [[0; 3; 9; 8; 5]; [4; 0; 2; 9; 7]; [9; 6; 0; 3; 8]; [5; 9; 7; 0; 2]; [2; 8; 6; 4; 0]]%Z.
Example C72_relaxed_example : at_most 9 cost5 /\ ((5 * (20 + 1) + 1) * 9 < 2 ^ 53)%Z /\ keeps double ieee /\
  selection (solved_f ieee 5 (plain 20 false 0) 5 (grid (-3) cost5) (fun l => l))
  = Some [(0, 1); (1, 2); (2, 3); (3, 4); (4, 0)].
Proof.
  split; [repeat constructor; cbn; lia|]. split; [lia|]. split; [exact ieee_keeps|]. vm_compute. reflexivity.
Qed.

(** four nodes with augmentation: two rounds, the messages of the exact run within 20 eighths *)
Definition cost4 : list (list Z) := [[0; 1; 8; 6]; [2; 0; 2; 7]; [4; 8; 0; 3]; [7; 6; 2; 0]]%Z.
Definition call4 : option tsp_params := py_call (plain 4 true 2) 4 (grid (-3) cost4) (fun l => l).
Lemma cost4_small : at_most 8 cost4.
Proof. repeat constructor; cbn; lia. Qed.
Example C72_augmented_example : at_most 8 cost4 /\ stays_within (-3) 20 2 (plain 4 true 2) 4 (grid (-3) cost4) (fun l => l)
  /\ ((2 + 3) * (2 + 3) * 20 < 2 ^ 53)%Z /\
  (exists st, solved 60 (plain 4 true 2) 4 (grid (-3) cost4) (fun l => l) = Some (Returned st)
     /\ c_num_aug (t_cnt st) = 2 /\ length (a_deltas (t_an st)) = 2)
  /\ selection (solved_f ieee 60 (plain 4 true 2) 4 (grid (-3) cost4) (fun l => l)) = Some [(0, 3); (3, 1)].
Proof.
  split; [exact cost4_small|]. split.
  { destruct call4 as [p|] eqn:E; [|vm_compute in E; discriminate E].
    apply (run_dec (-3) 20 2 (plain 4 true 2) 4 _ _ p 5 E).
    - unfold call4 in E. destruct (call_inputs (pow2 (-3)) 8 _ _ _ _ p ltac:(lia)
      (grid_on _ _ cost4 cost4_small) E) as (_ & _ & _ & H & _). exact H.
    - vm_compute in E. injection E as <-. eexists. vm_compute. reflexivity.
    - vm_compute in E. injection E as <-. vm_compute. reflexivity. }
  split; [lia|]. split; [|vm_compute; reflexivity].
  destruct (solved 60 (plain 4 true 2) 4 (grid (-3) cost4) (fun l => l)) as [o|] eqn:E; [|vm_compute in E; discriminate E].
  vm_compute in E. injection E as <-. eexists. split; [reflexivity|]. split; vm_compute; reflexivity.
Qed.
Print Assumptions C72_relaxed.
Print Assumptions C72_augmented.
Print Assumptions C72_large_costs_refuted.
