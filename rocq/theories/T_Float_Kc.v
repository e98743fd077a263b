(** * KC-MWM calls in floating-point arithmetic: C74. *)
From Verif Require Import SpecRound P_Round P_Float P_Float_Tsp P_Float_Ksat P_Float_Kc T_Float_Tsp T_Float_Ksat.
From Verif Require Import Num NumFacts Arr ArrFacts Spec M_Kc_Trellis M_InOut M_Runs M_Kc_Py M_Float.
Local Open Scope nat_scope.

(** The initial value 10^6 of a running minimum (update_or_inequality_constraint.hpp:125) is a number
    of the grid as well. *)
Lemma cap_on e B : (e <= 0)%Z -> (1000000 * 2 ^ (- e) <= B)%Z -> on (pow2 e) B oric_cap.
Proof.
  intros He HB. exists (1000000 * 2 ^ (- e))%Z.
  assert (0 < 2 ^ (- e))%Z by (apply Z.pow_pos_nonneg; lia).
  split; [|lia]. rewrite zq_mul.
  pose proof (pow2_shift e (- e) ltac:(lia)) as H1. replace (e + - e)%Z with 0%Z in H1 by lia.
  assert (H2 : pow2 0 = 1%Qc) by (apply Qc_is_canon; reflexivity).
  rewrite H2 in H1. transitivity (zq 1000000 * (pow2 e * zq (2 ^ (- e))))%Qc; [rewrite <- H1; ring | ring].
Qed.
Lemma grid1_on e C l : Forall (fun z => (Z.abs z <= C)%Z) l -> Forall (on (pow2 e) C) (grid1 e l).
Proof. intros H. apply Forall_map. eapply Forall_impl; [|exact H]. intros z Hz. exists z. auto. Qed.
Lemma kc_inputs_on u C T D P maxsz rt tr w sizes nz rp ms inp : (0 <= C)%Z ->
  Forall (on u C) rt -> Forall (on u C) tr -> Forall (on u C) rp ->
  kc_process_inputs T D P maxsz rt tr w sizes nz rp ms = Some inp ->
  Forall (on u C) (kc_reward_team inp) /\ mat (on u C) (kc_reward_project inp) /\ mat (on u C) (kc_team2knapsack inp).
Proof.
  intros HC H1 H2 H3. unfold kc_process_inputs.
  destruct (slice rt 0 T) as [rt'|] eqn:E1; [|discriminate]. cbn [bind].
  destruct (slice ms 0 D) as [ms'|]; [|discriminate]. cbn [bind].
  destruct (read_padded D maxsz sizes nz) as [nz'|]; [|discriminate]. cbn [bind].
  destruct (read_rows n0 D T tr) as [t2k|] eqn:E2; [|discriminate]. cbn [bind].
  destruct (read_rows 0 D T w) as [w'|]; [|discriminate]. cbn [bind].
  destruct (read_rows n0 P T rp) as [rp'|] eqn:E3; [|discriminate]. cbn [bind].
  intros [= <-]. cbn. split; [exact (slice_on _ _ _ _ _ H1 E1)|].
  split; [exact (read_rows_on _ _ _ _ _ _ (on_0 u C HC) H3 E3) | exact (read_rows_on _ _ _ _ _ _ (on_0 u C HC) H2 E2)].
Qed.

(** With rewards that are whole multiples of a power of two (a whole number of units per 1) and
    without filtering, a KC-MWM call in floating-point arithmetic returns what the exact call returns,
    as long as all messages of the exact run, the rewards and 10^6 stay within [B] units and
    [(4 D + 1) (4 T + 2) + 9] times [B] fits into the significand. *)
Theorem C74_kc_mwm : forall prec emin emax rnd e B iters D T P transition max_state reward_team reward_project
    weights nonzero sizes maxsz flag alpha,
  keeps (binary prec emin emax) rnd -> (emin <= e <= emax)%Z -> (e <= 0)%Z -> (1000000 * 2 ^ (- e) <= B)%Z ->
  (flag = false \/ alpha = n0) -> Forall (fun s => s <= T) sizes ->
  Forall (fun z => (Z.abs z <= B)%Z) transition -> Forall (fun z => (Z.abs z <= B)%Z) reward_team ->
  Forall (fun z => (Z.abs z <= B)%Z) reward_project ->
  (forall inp t st,
     kc_process_inputs T D P maxsz (grid1 e reward_team) (grid1 e transition) weights sizes nonzero
       (grid1 e reward_project) max_state = Some inp -> t <= iters ->
     for_up 0 t (kc_init T D P (kc_team2knapsack inp)) (kc_step flag alpha T D P inp sizes) = Some st ->
     kc_all (small (pow2 e) B) st) ->
  (((4 * Z.of_nat D + 1) * (4 * Z.of_nat T + 2) + 9) * B < 2 ^ prec)%Z ->
  wrapper_kc_mwm_f rnd iters D T P (grid1 e transition) max_state (grid1 e reward_team) (grid1 e reward_project)
    weights nonzero sizes maxsz flag alpha
  = wrapper_kc_mwm iters D T P (grid1 e transition) max_state (grid1 e reward_team) (grid1 e reward_project)
    weights nonzero sizes maxsz flag alpha.
Proof.
  intros prec emin emax rnd e B iters D T P tr ms rt rp w nz sizes maxsz flag alpha
    Hr He He0 Hcap Hf Hs H1 H2 H3 Hw L. unfold wrapper_kc_mwm_f, wrapper_kc_mwm.
  assert (HB : (0 <= B)%Z).
  { assert (0 < 2 ^ (- e))%Z by (apply Z.pow_pos_nonneg; lia). lia. }
  destruct (kc_process_inputs _ _ _ _ _ _ _ _ _ _ _) as [inp|] eqn:E; [|reflexivity]. cbn [bind].
  destruct (kc_inputs_on (pow2 e) B _ _ _ _ _ _ _ _ _ _ _ inp HB (grid1_on e B _ H2) (grid1_on e B _ H1) (grid1_on e B _ H3) E)
    as (I1 & I2 & I3).
  rewrite (kc_run_same (pow2 e) (2 ^ prec - 1) rnd) with (C := B) (B := B); auto.
  - apply exact_binary with (emin := emin) (emax := emax); assumption.
  - unfold unfiltered. destruct Hf as [-> | ->]; [reflexivity|]. destruct flag; reflexivity.
  - lia.
  - apply pow2_pos.
  - apply cap_on; assumption.
  - unfold kc_round. lia.
  - intros t st Ht R. exact (Hw inp t st eq_refl Ht R).
Qed.

(** Without a hypothesis on the run *)
Theorem C74_kc_mwm_few_iterations : forall prec emin emax rnd e B iters D T P transition max_state reward_team
    reward_project weights nonzero sizes maxsz flag alpha,
  keeps (binary prec emin emax) rnd -> (emin <= e <= emax)%Z -> (e <= 0)%Z -> (1000000 * 2 ^ (- e) <= B)%Z ->
  (flag = false \/ alpha = n0) -> Forall (fun s => s <= T) sizes ->
  Forall (fun z => (Z.abs z <= B)%Z) transition -> Forall (fun z => (Z.abs z <= B)%Z) reward_team ->
  Forall (fun z => (Z.abs z <= B)%Z) reward_project ->
  (((4 * Z.of_nat D + 1) * (4 * Z.of_nat T + 2) + 9) ^ (Z.of_nat iters + 1) * B < 2 ^ prec)%Z ->
  wrapper_kc_mwm_f rnd iters D T P (grid1 e transition) max_state (grid1 e reward_team) (grid1 e reward_project)
    weights nonzero sizes maxsz flag alpha
  = wrapper_kc_mwm iters D T P (grid1 e transition) max_state (grid1 e reward_team) (grid1 e reward_project)
    weights nonzero sizes maxsz flag alpha.
Proof.
  intros prec emin emax rnd e B iters D T P tr ms rt rp w nz sizes maxsz flag alpha
    Hr He He0 Hcap Hf Hs H1 H2 H3 L. unfold wrapper_kc_mwm_f, wrapper_kc_mwm.
  assert (HB : (0 <= B)%Z).
  { assert (0 < 2 ^ (- e))%Z by (apply Z.pow_pos_nonneg; lia). lia. }
  destruct (kc_process_inputs _ _ _ _ _ _ _ _ _ _ _) as [inp|] eqn:E; [|reflexivity]. cbn [bind].
  destruct (kc_inputs_on (pow2 e) B _ _ _ _ _ _ _ _ _ _ _ inp HB (grid1_on e B _ H2) (grid1_on e B _ H1) (grid1_on e B _ H3) E)
    as (I1 & I2 & I3).
  rewrite (kc_short_same (pow2 e) (2 ^ prec - 1) rnd) with (C := B) (B := B); auto.
  - apply exact_binary with (emin := emin) (emax := emax); assumption.
  - unfold unfiltered. destruct Hf as [-> | ->]; [reflexivity|]. destruct flag; reflexivity.
  - lia.
  - apply cap_on; assumption.
  - unfold kc_round. replace (Z.of_nat (iters + 1)) with (Z.of_nat iters + 1)%Z by lia. lia.
Qed.

(** Larger rewards: one department of capacity 1, teams of weight 1 with rewards 3 and -2^54, one
    project with rewards -(2^54 + 4) and 2^55.  The exact value of the first pair is -1 and the pair is
    selected; in double precision 2^54 + 3 is 2^54 + 4, the value is 0, and it is not. *)
(** what the wrapper makes of the intrinsic values (Impa.py:1613-1614) *)
Definition selected (r : option (list num * list num)) : option (list bool) :=
  option_map (fun r => map (fun v => neqb (kc_decide thr0 v) n1) (snd r)) r.
Definition rewards2 (b : Z) : list Z := [3; - b]%Z.
Definition pairs2 (b : Z) : list Z := [- (b + 4); 2 * b]%Z.
Theorem C74_large_rewards_refuted :
  ~ (forall rnd iters D T P transition max_state reward_team reward_project weights nonzero sizes maxsz,
      keeps double rnd -> Forall (fun s => s <= T) sizes ->
      Forall (fun z => double (zq z)) transition -> Forall (fun z => double (zq z)) reward_team ->
      Forall (fun z => double (zq z)) reward_project ->
      selected (wrapper_kc_mwm_f rnd iters D T P (grid1 0 transition) max_state (grid1 0 reward_team)
                  (grid1 0 reward_project) weights nonzero sizes maxsz false n0)
      = selected (wrapper_kc_mwm iters D T P (grid1 0 transition) max_state (grid1 0 reward_team)
                  (grid1 0 reward_project) weights nonzero sizes maxsz false n0)).
Proof.
  intros H. specialize (H ieee 1 1 2 1 (rewards2 (2 ^ 54)) [1] (rewards2 (2 ^ 54)) (pairs2 (2 ^ 54)) [1; 1] [0; 1] [2] 2
    ieee_keeps ltac:(repeat constructor)).
  assert (D : forall m e z, (Z.abs m < 2 ^ 53)%Z -> (-1074 <= e <= 971)%Z -> zq z = (zq m * pow2 e)%Qc -> double (zq z)).
  { intros m e z H1 H2 H3. exists m, e. auto. }
  assert (D1 : Forall (fun z => double (zq z)) (rewards2 (2 ^ 54))).
  { constructor; [apply (D 3%Z 0%Z); [lia | lia | apply Qc_is_canon; reflexivity]|].
    constructor; [apply (D (-1)%Z 54%Z); [lia | lia | apply Qc_is_canon; reflexivity]|]. constructor. }
  assert (D2 : Forall (fun z => double (zq z)) (pairs2 (2 ^ 54))).
  { constructor; [apply (D (- (2 ^ 52 + 1))%Z 2%Z); [lia | lia | apply Qc_is_canon; reflexivity]|].
    constructor; [apply (D 1%Z 55%Z); [lia | lia | apply Qc_is_canon; reflexivity]|]. constructor. }
  specialize (H D1 D1 D2). vm_compute in H. discriminate H.
Qed.

(** the bound on the messages, decided *)
Definition kc_all_b (b : Qc) (st : kc_state) : bool :=
  mat_b b (kc_t2k st) && (mat_b b (kc_dummy st) && (mat_b b (kc_extr st) && (forallb (small_b b) (kc_team2oric st)
  && (forallb (small_b b) (kc_oric2team st) && (mat_b b (kc_eq2oric st) && (mat_b b (kc_oric2eq st)
  && (mat_b b (kc_eq2project st) && (mat_b b (kc_project2eq st) && forallb (small_b b) (kc_intrinsic st))))))))).
Lemma kc_all_dec u B st : kc_all_b (zq B * u)%Qc st = true -> kc_all (small u B) st.
Proof.
  assert (V : forall l, forallb (small_b (zq B * u)%Qc) l = true -> Forall (small u B) l).
  { intros l H. apply Forall_forall. intros x Hx. apply small_dec. rewrite forallb_forall in H. auto. }
  unfold kc_all_b. rewrite !Bool.andb_true_iff. intros (H1 & H2 & H3 & H4 & H5 & H6 & H7 & H8 & H9 & H10).
  repeat split; auto using mat_dec.
Qed.
(** the same call with rewards in halves, three iterations: within 2 * 10^6 halves *)
Example C74_example :
  (forall inp t st,
     kc_process_inputs 2 1 1 2 (grid1 (-1) (rewards2 9)) (grid1 (-1) (rewards2 9)) [1; 1] [2] [0; 1]
       (grid1 (-1) (pairs2 9)) [1] = Some inp -> t <= 3 ->
     for_up 0 t (kc_init 2 1 1 (kc_team2knapsack inp)) (kc_step false n0 2 1 1 inp [2]) = Some st ->
     kc_all (small (pow2 (-1)) 2000010) st) /\
  (1000000 * 2 ^ 1 <= 2000010)%Z /\ (((4 * 1 + 1) * (4 * 2 + 2) + 9) * 2000010 < 2 ^ 53)%Z /\
  (((4 * 1 + 1) * (4 * 2 + 2) + 9) ^ (3 + 1) * 2000010 < 2 ^ 53)%Z /\
  selected (wrapper_kc_mwm_f ieee 3 1 2 1 (grid1 (-1) (rewards2 9)) [1] (grid1 (-1) (rewards2 9))
    (grid1 (-1) (pairs2 9)) [1; 1] [0; 1] [2] 2 false n0) = Some [true; false].
Proof.
  split.
  { intros inp t st Hi Ht R. vm_compute in Hi. injection Hi as <-.
    do 4 (destruct t as [|t]; [vm_compute in R; injection R as <-; apply kc_all_dec; vm_compute; reflexivity|]). lia. }
  split; [lia|]. split; [lia|]. split; [lia|]. vm_compute. reflexivity.
Qed.
Print Assumptions C74_kc_mwm.
Print Assumptions C74_kc_mwm_few_iterations.
Print Assumptions C74_large_rewards_refuted.
