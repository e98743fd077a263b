(** * C91: the unit tests of whole runs pass. *)
From Coq Require Import Permutation String.
From Verif Require Import NumFacts Arr ArrFacts Spec SpecGraph SpecKc SpecRun MinSum M_InOut M_PyRef M_PyRef_Ksat M_Runs M_PyRef_Run M_PyRef_Tsp
  M_Kc_Trellis M_Tsp_Run M_Tsp_Py M_Ksat_Py M_Kc_Py M_Kc_Summary M_Instances M_PyRef_Object M_Test_Check M_Unit_Tests M_Unit_Knapsack
  M_Unit_Runs SpecRange P_Kc_Range P_Tsp_Constraints P_Kc_Trellis P_Equality P_InOut P_Runs P_Schedule P_PyRef P_PyRef_Run P_PyRef_Tsp P_Tsp_Run P_Tsp_Fin
  P_Tsp_Py P_Ksat_Py P_Ksat_Gen P_Kc_Gen P_Unit_Tests P_Unit_Gen T_PyRef T_PyRef_Run T_PyRef_Object T_Instances T_Tsp_Call T_PyRef_Tsp T_Test_Check
  T_Unit_Tests T_Unit_Knapsack T_Kc_Best T_Kc_Range.
From Verif Require Import Num.
Local Open Scope nat_scope.

(** ** K-SAT *)
Theorem C91_ksat_partial : forall nv nc k iters flag alpha thr ord x,
  2 <= k -> length (x_sol x) = nv -> nv <= length (x_metrics x) -> length (x_clauses x) = nc ->
  Forall (valid_draw nv k) (x_clauses x) -> (forall l, Permutation l (ord l)) ->
  (* missing: filtering with alpha = 0, where Python raises *)
  (flag = true -> alpha <> 0%Qc) -> nv <> 0 ->
  test_passes nv (ut_ksat_iterate nv nc k iters flag (Fin alpha) thr ord x).
Proof.
  intros nv nc k iters flag alpha thr ord x Hk Ls Lm Lc Hd P Ha Hv.
  destruct (C84_generated nv nc k [] ord x) as (r & ms & Er & _ & Hf); auto; [lia|]. cbv zeta in Hf.
  destruct Hf as (En & _ & Qs & _ & Nu & _ & W & Qo & Em & Lms & _).
  assert (R1 : rf_nv r = nv /\ rf_nc r = nc).
  { unfold ref_initialize in Er. cbn [bind] in Er. destruct (ref_metrics _ _ _); [|discriminate]. cbn [bind] in Er.
    destruct (ref_formula _ _ _ _ _ _); [|discriminate]. cbn [bind] in Er. injection Er as <-. auto. }
  destruct R1 as (R1 & R2). rewrite <- En in R2.
  destruct (ksat_runs_agree nv k (rf_formula r) ms iters flag alpha thr Hk W Qs Qo Nu Lms Ha) as (((ext, intr), hd) & P1 & P2 & Li).
  cbn [snd] in Li. unfold reference_ksat in P2.
  assert (Lx : length ext = nv).
  { unfold py_ksat_reference in P2. destruct (py_ksat_initial _ _ _ _); [|discriminate]. cbn [bind] in P2.
    destruct (for_up _ _ _ _); [|discriminate]. cbn [bind] in P2. destruct (used_costs _ _ _); [|discriminate]. cbn [bind] in P2.
    unfold np_add in P2. destruct (Nat.eqb_spec (length (pk_extr p)) (length l0)) as [L|]; [|discriminate]. cbn [bind] in P2.
    injection P2 as <- <- <-. rewrite map_length, zip_with_length in Li. lia. }
  unfold ut_ksat_iterate. rewrite Er. cbn [bind]. rewrite R2.
  rewrite py_ksat_initial_eq by (rewrite (c_conx _ _ W); auto).
  unfold package_ksat in P1. rewrite <- Em in P1, P2.
  destruct (initial_messages nv (rf_formula r) (rf_metrics r)) as [m|]; [|discriminate]. cbn [bind] in *.
  destruct (wrapper_ksat _ _ _ _ _ _ _ _ _ _ _ _ _ _) as [e|] eqn:Ew; [|discriminate]. cbn [bind] in *.
  destruct (py_ksat_intrinsic _ _ _); [|discriminate]. cbn [bind] in P1. injection P1 as -> -> Eh.
  destruct (T_Ksat_Py.C34_summary_exact nv (rf_formula r) hd W Li) as (s & Es & _).
  unfold ref_run. rewrite R1, R2, P2. cbn [bind]. rewrite Es. cbn [bind].
  apply passes_intro with ext; auto.
Qed.

(** ** Travelling salesperson *)
Definition ut_settings (aug : bool) (iters : nat) (flag : bool) (alpha thr : num) : tsp_options :=
  {| q_iters := iters; q_aug := aug; q_reset := false; q_filt := flag; q_alpha := alpha; q_thr := thr; q_max_count := 50; q_max_augm := 50 |}.
Lemma ut_params_eq n cm aug iters flag alpha thr ord :
  ut_tsp_params n cm aug iters flag alpha thr ord = py_call (ut_settings aug iters flag alpha thr) n cm ord.
Proof. unfold ut_tsp_params, py_call, py_tsp_initialize. destruct (py_tsp_arrays _ _ _) as [(c & m)|]; reflexivity. Qed.

Definition with_ord (p : tsp_params) (ord : list nat -> list nat) : tsp_params :=
  {| p_n := p_n p; p_e := p_e p; p_iters := p_iters p; p_aug := p_aug p; p_reset := p_reset p; p_filt := p_filt p;
     p_alpha := p_alpha p; p_thr := p_thr p; p_max_count := p_max_count p; p_in := p_in p; p_ord := ord |}.
(** the order of the hash map does not show in the intrinsic output of the relaxed stage *)
Lemma relaxed_ord p ord s1 s2 : iterate_relaxed p (tsp_init p) = Some s1 ->
  iterate_relaxed (with_ord p ord) (tsp_init (with_ord p ord)) = Some s2 -> r_intr (t_sol s2) = r_intr (t_sol s1).
Proof.
  unfold iterate_relaxed. change (tsp_init (with_ord p ord)) with (tsp_init p).
  change (relaxed_step (with_ord p ord)) with (relaxed_step p). cbn [with_ord p_iters p_in p_thr p_e].
  destruct (for_up _ _ _ _); [|discriminate]. cbn [bind]. destruct (extrinsic_relaxed _ _); [|discriminate]. cbn [bind].
  destruct (intrinsic_output _ _ _); [|discriminate]. cbn [bind]. destruct (select_edges _ _ _); [|discriminate]. cbn [bind].
  destruct (selection_cost _ _); [|discriminate]. cbn [bind].
  destruct (analyse p _ _); [|discriminate]. destruct (analyse (with_ord p ord) _ _); [|discriminate]. cbn [bind].
  intros X Y; injection X as <-; injection Y as <-; reflexivity.
Qed.

Section Tsp.
Variables (n : nat) (symmetric : bool) (U : list (list Qc)) (iters : nat) (flag : bool) (alpha : Qc) (thr : num).
Hypotheses (Hn : 3 <= n) (SU : shape n n U) (NzU : forall i j, i < n -> j < n -> qat U i j <> 0%Qc).
Hypotheses (Hthr : is_nan thr = false).

(** Of the first stage; [ord] is the order of the hash map. *)
Theorem C91_tsp_relaxed_partial : forall ord, (forall l, Permutation (ord l) l) ->
  (* missing: no iteration, filtering with alpha = 0, where Python raises *)
  1 <= iters -> (flag = true -> alpha <> 0%Qc) ->
  test_passes (py_num_edges n) (ut_tsp_relaxed n symmetric (inj U) iters flag (Fin alpha) thr ord).
Proof.
  intros ord Po Hi Ha. destruct (C67_tsp_matrix n symmetric U SU NzU) as (C & E & HC & _).
  unfold ut_tsp_relaxed. rewrite E. set (o := ut_settings false iters flag (Fin alpha) thr).
  destruct (call_pieces o n C HC) as (p & M & Ep & Ei & En & Ee & EE & Ec & Em & Ed & Ee2 & SM & OM & O1 & O2 & O3 & O4 & O5 & O6 & O7 & O8).
  rewrite Ei. cbn [bind]. rewrite ut_params_eq. fold o.
  assert (Eq : py_call o n (inj C) ord = Some (with_ord p ord)).
  { unfold py_call in Ep |- *. destruct (py_tsp_arrays _ _ _) as [(c & m)|]; [|discriminate]. cbn [bind] in *.
    destruct (tsp_process_inputs _ _ _ _ _ _ _); [|discriminate]. cbn [bind] in *. injection Ep as <-. reflexivity. }
  assert (Co : complete (p_n p) (tsp_edges (p_in p))) by (rewrite En, EE; apply py_edges_complete, HC).
  set (cost := map (fun e => qat C (fst e) (snd e)) (tsp_edges (p_in p))) in *.
  assert (Lc : length cost = p_e p) by (unfold cost; rewrite map_length; auto).
  assert (SC : shape (p_n p) (p_n p) C) by (rewrite En; apply HC).
  assert (Hn' : 3 <= p_n p) by lia.
  destruct (first_stage_same p (ref_opts o) alpha cost M C Hn' Co (eq_sym Ee) O5 Ec Lc Ed SM OM Em SC
     (eq_sym O1) (eq_sym O4) (eq_sym O5) (eq_sym O6)) as (m & intr & dec & ps & st & A1 & A2 & A3 & A4 & _ & _ & _ & _ & _ & _ & _ & Ri & Li).
  { rewrite O4. exact Ha. }
  { rewrite O6. exact Hthr. }
  { exact O8. }
  { exact Ee2. }
  { rewrite O1. exact Hi. }
  change (ut_tsp_options false iters flag (Fin alpha) thr) with (ref_opts o).
  cbn [pd_degree_cost]. rewrite A1. cbn [bind]. rewrite A2. cbn [bind]. rewrite A3. cbn [bind]. rewrite Eq. cbn [bind].
  destruct (C13_tsp_safe 0 o n C ord Hn HC) as (p' & out & B1 & B2 & _); [eexists; reflexivity|exact Po|].
  rewrite Eq in B1. injection B1 as <-. unfold tsp_solve in B2.
  destruct (iterate_relaxed (with_ord p ord) (tsp_init (with_ord p ord))) as [s2|] eqn:E2; [|discriminate]. cbn [bind].
  rewrite (relaxed_ord _ _ _ _ A4 E2), Ri. apply passes_intro with intr; auto.
  - rewrite Li, Ee, EE. unfold py_num_edges. rewrite EE, En in Co. rewrite (complete_length _ _ Co). reflexivity.
  - apply edges_nonzero. lia.
Qed.

(** Of both stages. *)
Theorem C91_tsp_augmented_partial : forall k C ps,
  create_cost_matrix symmetric (inj U) = (inj C, all_pairs n) ->
  (* missing: runs in which Python raises (C56), a subtour without an edge that leaves it, 50 rounds, a selection that costs
     nothing, another order of the hash map *)
  py_tsp_reference k (ut_tsp_options true iters flag (Fin alpha) thr) n (inj C) = Some (PyDone ps) -> ~ In [] (pt_deltas ps) ->
  k < 50 ->
  (forall j q, j <= k ->
     py_tsp_reference j (ut_tsp_options true iters flag (Fin alpha) thr) n (inj C) = Some (PyRunning q) -> pt_cost q <> n0) ->
  test_passes (py_num_edges n) (ut_tsp_augmented k n symmetric (inj U) iters flag (Fin alpha) thr (fun l => l)).
Proof.
  intros k C ps E R Nr Hk Hz. destruct (C67_tsp_matrix n symmetric U SU NzU) as (C' & E' & HC & _).
  rewrite E in E'. injection E' as E'. apply (f_equal unm) in E'. rewrite !unm_inj in E'. subst C'.
  set (o := ut_settings true iters flag (Fin alpha) thr).
  destruct (C56_tsp_same_result_partial k o n C alpha ps Hn HC) as (st & S1 & S2 & _); auto; [cbn; lia|cbn; lia|].
  unfold ut_tsp_augmented. rewrite E, R. cbn [bind]. rewrite ut_params_eq. fold o. unfold solved in S1.
  destruct (py_call o n (inj C) (fun l => l)) as [p|] eqn:Ep; [|discriminate]. cbn [bind] in *.
  change (q_max_augm o) with 50%Z in S1. rewrite S1. cbn [bind].
  destruct S2 as (Ip & _). pose proof (solve_history _ _ _ _ S1) as (l & s0 & Hh & Hs).
  assert (Li : length (r_intr (t_sol st)) = py_num_edges n).
  { replace (t_sol st) with (t_sol s0) by (destruct Hs as [(-> & _)| ->]; [|rewrite (proj1 (grow_fields p s0))]; reflexivity).
    rewrite (history_intr _ _ _ Hh). unfold py_call in Ep. destruct (py_tsp_arrays _ _ _) as [(c & m)|]; [|discriminate]. cbn [bind] in Ep.
    destruct (tsp_process_inputs _ _ _ _ _ _ _); [|discriminate]. injection Ep as <-. reflexivity. }
  rewrite Ip. eapply passes_intro; [reflexivity|exact Li|]. apply edges_nonzero. lia.
Qed.
End Tsp.

(** ** KC-MWM *)
Lemma columns_twice P T R : shape P T R -> columns P (columns T R) = R.
Proof.
  intros (LP & F). unfold columns. etransitivity; [|exact (map_nth_seq R [])]. rewrite LP. apply map_ext_in. intros j Hj.
  apply in_seq in Hj. rewrite map_map. rewrite Forall_forall in F.
  assert (L : length (nth j R []) = T) by (apply F, nth_In; lia).
  rewrite <- (map_nth_seq (nth j R []) 0%Qc), L. apply map_ext_in. intros t _.
  rewrite (nth_indep _ 0%Qc (nth t [] 0%Qc)) by (rewrite map_length; lia). apply (map_nth (fun r => nth t r 0%Qc)).
Qed.
Lemma columns_row0 P T R : shape P T R -> T <> 0 -> exists r0, get (inj (columns T R)) 0 = Some r0 /\ length r0 = P.
Proof.
  intros (LP & F) N. destruct T as [|T]; [congruence|]. cbn. eexists. split; [reflexivity|]. now rewrite !map_length.
Qed.
(** the teams that the object generates without pruning are those of the test *)
Lemma own_weights caps types : length caps <> 0 -> length caps <= 11 -> Forall (fun ty => 1 <= ty <= 5) types ->
  room caps types (list_prod (units (length caps)) (units (length caps))) ->
  exists g s, generate caps types (list_prod (units (length caps)) (units (length caps))) = Some (g, s) /\
    gen_weights g = map (fun d => map (need d) (teams_of caps (blocks types (list_prod (units (length caps)) (units (length caps)))))) (seq 1 (length caps)).
Proof.
  intros HD H11 Ht Hroom. set (combos := list_prod (units (length caps)) (units (length caps))) in *.
  assert (IR : forall b, In b (blocks types combos) -> in_range caps b) by (intros b Hb; apply (ut_in_range caps types HD Ht b Hb)).
  destruct (generate_ok caps H11 types combos) as (g & E & A & _ & _ & W & _).
  { apply Forall_forall. intros [u v] Hc. apply Forall_forall. intros ty Hty. apply IR, in_blocks. auto. }
  exists g. eexists. split; [exact E|]. apply list_ext_get; [now rewrite map_length, seq_length|]. intros i Hi. unfold get.
  rewrite (nth_error_nth' _ []) by auto. specialize (W (i + 1) ltac:(lia)). replace (i + 1 - 1) with i in W by lia.
  rewrite W. rewrite nth_error_map, (nth_error_nth' (seq 1 (length caps)) 0) by (rewrite seq_length; lia).
  rewrite seq_nth by lia. cbn [option_map]. f_equal. rewrite map_teams, (Nat.add_comm i 1).
  apply flat_map_ext_in. intros b Hb. apply block_aligned; auto.
Qed.

(** both pairs of files agree *)
Definition both_pass (T P : nat) (r : option (files * files)) : Prop :=
  exists y z, r = Some ((y, y), (z, z)) /\ test_passes T (Some (y, y)) /\ test_passes (P * T) (Some (z, z)).

Theorem C91_kc_partial : forall iters flag alpha caps types reward R T W P,
  caps <> [] -> types <> [] -> Forall (fun ty => 1 <= ty <= 5) types ->
  room caps types (list_prod (units (length caps)) (units (length caps))) -> ut_teams caps types = Some (T, W) ->
  length reward = T -> shape P T R -> 2 <= P -> 2 <= T ->
  (* missing: more than 11 departments (the object raises); as many projects as teams, no iteration, filtering with a factor
     outside (0, 1], rewards whose differences can exceed the constant 1000000 (as in C55) *)
  length caps <= 11 -> P <> T -> 1 <= iters -> (flag = true -> 0 < alpha /\ alpha <= 1)%Qc ->
  moderate T P R reward (zq 1000000) ->
  both_pass T P (ut_kc_iterate iters flag (Fin alpha) caps types (map Fin reward) (inj R)).
Proof.
  intros iters flag alpha caps types reward R T W P HC HT Ht Hroom Eu LR SR HP H2 H11 HPT Hit Ha Mo.
  destruct (C90_teams caps types HC HT Ht Hroom) as (teams & Hg & _ & E & Fit & ST & Two).
  assert (HD : length caps <> 0) by (destruct caps; [congruence|discriminate]).
  rewrite Eu in E. injection E as ET EW.
  destruct (own_weights caps types HD H11 Ht Hroom) as (g & s & Eg & Wg).
  pose proof (ut_teams_ok caps types HD Ht Hroom) as E'. rewrite Eu in E'. injection E' as _ EW'.
  assert (SW : shape (length caps) T W).
  { rewrite EW, ET. split; [now rewrite map_length, seq_length|]. apply Forall_map, Forall_forall. intros d _. apply map_length. }
  rewrite <- EW, <- ET in Fit, ST. rewrite <- EW in Two.
  assert (Inst : kc_instance T (length caps) P W R reward caps).
  { unfold kc_instance. destruct SW as (LW & FW). repeat (split; [solve [auto | split; auto]|]). split; [|split; [|exact Two]].
    - intros d ws H. assert (Hd : d < length caps) by (rewrite <- LW; apply nth_error_Some; congruence).
      destruct (ST d Hd) as (t & Hlt & N). apply (nth_error_nth _ _ []) in H. rewrite H in N.
      exists t, (nth t ws 0). split; [|exact N]. apply nth_error_nth'. rewrite Forall_forall in FW. rewrite (FW ws); [exact Hlt|].
      rewrite <- H. apply nth_In. lia.
    - intros d ws cap H Hc. assert (Hd : d < length caps) by (rewrite <- LW; apply nth_error_Some; congruence).
      apply (nth_error_nth _ _ []) in H. apply (nth_error_nth _ _ 0) in Hc. apply Forall_forall. intros w Hw.
      apply (In_nth _ _ 0) in Hw as (t & Hlt & <-). rewrite <- H, <- Hc. apply Fit; [exact Hd|].
      rewrite Forall_forall in FW. rewrite (FW ws) in Hlt; [exact Hlt|]. rewrite <- H. apply nth_In. lia. }
  destruct (kc_runs_agree T (length caps) P W R reward caps iters flag alpha) as (ext & intr & pairs & E1 & E2 & Sp); auto.
  { intros F. destruct (Ha F) as (A & _). intros ->. discriminate. }
  { intros i st (Hi & _). apply kc_iterates_small; auto. }
  unfold ut_kc_iterate. rewrite Eu. cbn [bind]. rewrite map_length, LR, Nat.eqb_refl. cbn [andb].
  assert (FR : forallb (fun r => length r =? T) (inj R) = true).
  { apply forallb_forall. intros r Hr. apply in_map_iff in Hr as (q & <- & Hq). rewrite map_length. apply Nat.eqb_eq.
    destruct SR as (_ & F). rewrite Forall_forall in F. auto. }
  rewrite FR, Eg. cbn [bind]. replace (transpose T (inj R)) with (inj (columns T R)) by (symmetry; apply P_Kc_Call.transpose_inj).
  destruct (columns_row0 P T R SR ltac:(lia)) as (r0 & Er & Lr). rewrite Er. cbn [bind]. rewrite Lr.
  replace (transpose P (inj (columns T R))) with (inj R) by (symmetry; etransitivity; [apply P_Kc_Call.transpose_inj|f_equal; apply columns_twice, SR]).
  rewrite Wg, <- EW'. rewrite E2. cbn [bind].
  assert (LP : length (inj R) = P) by (unfold inj; rewrite map_length; apply SR). rewrite LP.
  unfold ut_kc_cpp. unfold package_kc in E1. destruct (wrapper_kc_mwm _ _ _ _ _ _ _ _ _ _ _ _ _ _) as [[x y]|]; [|discriminate].
  cbn [bind] in E1 |- *. injection E1 as -> Ei ->.
  assert (Lx : length ext = T).
  { unfold py_kc_reference in E2. destruct (py_kc_iterate _ _ _ _ _ _ _ _ _ _) as [st|]; [|discriminate]. cbn [bind] in E2.
    destruct (kp_extr_team st) as [x|]; [|discriminate]. cbn [bind] in E2. unfold np_add in E2. rewrite map_length in E2.
    destruct (Nat.eqb_spec (length x) (length reward)); [|discriminate]. injection E2 as <- _ _. lia. }
  exists ext, (concat pairs). split; [reflexivity|]. split.
  - apply passes_intro with ext; auto. lia.
  - apply passes_intro with (concat pairs); auto; [apply shape_concat_length, Sp|nia].
Qed.

Theorem C91_kc_sample_partial :
  forall iters flag (alpha : Qc) caps types (rt : list Qc) (rp : list (list Qc)) P o teams,
    Forall (fun ty => 1 <= ty <= 5) types -> types <> [] ->
    kc_initialize caps types = Some o -> room caps types (o_combos o) -> generated caps types (o_combos o) teams ->
    length rt = length teams -> shape (length teams) P rp -> 2 <= P -> 2 <= length teams ->
    (* missing: as in [C91_kc_partial] *)
    P <> length teams -> 1 <= iters -> (flag = true -> 0 < alpha /\ alpha <= 1)%Qc ->
    moderate (length teams) P (columns P rp) rt (zq 1000000) ->
    both_pass (length teams) P (ut_kc_sample iters flag (Fin alpha) caps types (map Fin rt) (inj rp)).
Proof.
  intros iters flag alpha caps types rt rp P o teams Ht Hne E Hroom Hg Lr Sr HP HT HPT Hit Ha Mo.
  destruct (call_instance caps types o teams P rt rp) as (Inst & wf & Ec & HD); auto.
  destruct wf as (_ & ET & _).
  destruct (kc_runs_agree (length teams) (length caps) P (o_weights o) (columns P rp) rt caps iters flag alpha) as
    (ext & intr & pairs & E1 & E2 & Sp); auto; [lia| | |].
  { intros F. destruct (Ha F) as (A & _). intros ->. discriminate. }
  { intros i st (Hi & _). apply kc_iterates_small; auto. lia. }
  unfold ut_kc_sample. rewrite E. cbn [bind].
  destruct (get_lt (inj rp) 0) as (r0 & E0). { unfold inj. rewrite map_length. destruct Sr; lia. } rewrite E0. cbn [bind].
  assert (EP : length r0 = P).
  { unfold get, inj in E0. rewrite nth_error_map in E0. destruct (nth_error rp 0) as [r|] eqn:E0'; [|discriminate]. injection E0 as <-.
    rewrite map_length. destruct Sr as [_ F]. rewrite Forall_forall in F. apply F. eapply nth_error_In; eauto. }
  assert (FR : forallb (fun r => length r =? P) (inj rp) = true).
  { apply forallb_forall. intros r Hr. apply in_map_iff in Hr as (q & <- & Hq). rewrite map_length. apply Nat.eqb_eq.
    destruct Sr as (_ & F). rewrite Forall_forall in F. auto. }
  assert (LI : length (inj rp) = length teams) by (unfold inj; rewrite map_length; apply Sr).
  rewrite EP, ET, !map_length, Lr, LI, Nat.eqb_refl, FR. cbn [andb].
  replace (transpose P (inj rp)) with (inj (columns P rp)) by (symmetry; apply P_Kc_Call.transpose_inj).
  rewrite E2. cbn [bind].
  unfold ut_kc_cpp. unfold package_kc in E1. destruct (wrapper_kc_mwm _ _ _ _ _ _ _ _ _ _ _ _ _ _) as [[x y]|]; [|discriminate].
  cbn [bind] in E1 |- *. injection E1 as -> Ei ->.
  assert (Lx : length ext = length teams).
  { unfold py_kc_reference in E2. destruct (py_kc_iterate _ _ _ _ _ _ _ _ _ _) as [st|]; [|discriminate]. cbn [bind] in E2.
    destruct (kp_extr_team st) as [x|]; [|discriminate]. cbn [bind] in E2. unfold np_add in E2. rewrite map_length in E2.
    destruct (Nat.eqb_spec (length x) (length rt)); [|discriminate]. injection E2 as <- _ _. lia. }
  exists ext, (concat pairs). split; [reflexivity|]. split.
  - apply passes_intro with ext; auto. lia.
  - apply passes_intro with (concat pairs); auto; [apply shape_concat_length, Sp|nia].
Qed.

(** ** Examples *)
Definition both_files (r : option files) := option_map (fun f => (map view (fst f), map view (snd f))) r.
Definition four_files (r : option (files * files)) :=
  option_map (fun f => (map view (fst (fst f)), map view (snd (fst f)), map view (fst (snd f)), map view (snd (snd f)))) r.

(** three clauses, three filtered iterations; with filtering and [alpha = 0] the Python program raises *)
Example C91_ksat_example :
  test_passes 4 (ut_ksat_iterate 4 3 2 3 true (Fin (Q2Qc (1 # 2))) n0 (fun l => l) x84) /\
  both_files (ut_ksat_iterate 4 3 2 3 true (Fin (Q2Qc (1 # 2))) n0 (fun l => l) x84)
  = Some ([VFin (7 # 16); VFin (7 # 16); VFin (-77 # 16); VFin 0], [VFin (7 # 16); VFin (7 # 16); VFin (-77 # 16); VFin 0]).
Proof.
  split; [|vm_compute; reflexivity].
  apply C91_ksat_partial; try exact x84_valid; try reflexivity; try discriminate; cbn; lia.
Qed.
Theorem C91_ksat_refuted : exists nv nc k iters x, 2 <= k /\ length (x_sol x) = nv /\ nv <= length (x_metrics x) /\
  length (x_clauses x) = nc /\ Forall (valid_draw nv k) (x_clauses x) /\
  ut_ksat_iterate nv nc k iters true n0 n0 (fun l => l) x = None.
Proof.
  exists 4, 3, 2, 3, x84. split; [lia|]. split; [reflexivity|]. split; [cbn; lia|]. split; [reflexivity|]. split; [exact x84_valid|].
  vm_compute. reflexivity.
Qed.

Definition tspU : list (list Qc) := map (map zq) [[5; 1; 8; 6]; [2; 5; 2; 7]; [4; 8; 5; 3]; [7; 6; 2; 5]]%Z.
Lemma tspU_ok : shape 4 4 tspU /\ forall i j, i < 4 -> j < 4 -> qat tspU i j <> 0%Qc.
Proof.
  split; [split; [reflexivity|repeat constructor]|].
  intros i j Hi Hj. do 4 (destruct i as [|i]; [do 4 (destruct j as [|j]; [discriminate|]); lia|]). lia.
Qed.
Example C91_tsp_relaxed_example :
  test_passes 12 (ut_tsp_relaxed 4 false (inj tspU) 3 true (Fin (Q2Qc (1 # 2))) n0 (@rev nat)) /\
  option_map fst (both_files (ut_tsp_relaxed 4 false (inj tspU) 3 true (Fin (Q2Qc (1 # 2))) n0 (@rev nat)))
  = Some (map VFin [-31 # 4; 11; 7; -9 # 4; 3; 6; 13 # 4; 10; -41 # 8; 5; 27 # 4; -35 # 8]%Q).
Proof.
  split; [|vm_compute; reflexivity]. destruct tspU_ok. apply (C91_tsp_relaxed_partial 4); auto.
  - intros l. symmetry. apply Permutation_rev.
  - discriminate.
Qed.
(** three iterations without filtering give two subtours, one round of constraints a tour *)
Example C91_tsp_augmented_example :
  test_passes 12 (ut_tsp_augmented 3 4 false (inj tspU) 3 false n0 n0 (fun l => l)) /\
  option_map fst (both_files (ut_tsp_augmented 3 4 false (inj tspU) 3 false n0 n0 (fun l => l)))
  = Some (map VFin [6; 14; -1; 10; -1; 11; 0; 6; 5; 6; 0; 7]%Q).
Proof.
  split; [|vm_compute; reflexivity]. destruct tspU_ok as (S & N).
  destruct (C67_tsp_matrix 4 false tspU S N) as (C & E & HC & _).
  assert (EC : C = unm (fst (create_cost_matrix false (inj tspU)))) by (rewrite E; cbn [fst]; now rewrite unm_inj).
  assert (EI : inj C = fst (create_cost_matrix false (inj tspU))) by (rewrite E; reflexivity).
  destruct (py_tsp_reference 3 (ut_tsp_options true 3 false (Fin 0) n0) 4 (inj C)) as [[ps| |q]|] eqn:R;
    [|(rewrite EI in R; vm_compute in R; discriminate)..].
  apply (C91_tsp_augmented_partial 4 false tspU 3 false 0%Qc n0 ltac:(lia) S N eq_refl 3 C ps E R).
  - rewrite EI in R. vm_compute in R. injection R as <-. cbn. intuition discriminate.
  - lia.
  - intros j q Hj. rewrite EI. do 4 (destruct j as [|j]; [vm_compute; intros X; injection X as <- || discriminate X; try discriminate|]); lia.
Qed.
Theorem C91_tsp_refuted : exists n U, 3 <= n /\ shape n n U /\ (forall i j, i < n -> j < n -> qat U i j <> 0%Qc) /\
  ut_tsp_relaxed n false (inj U) 3 true n0 n0 (fun l => l) = None /\
  ut_tsp_relaxed n false (inj U) 0 false n0 n0 (fun l => l) = None.
Proof.
  exists 4, tspU. split; [lia|]. destruct tspU_ok as (A & B). split; [exact A|]. split; [exact B|]. split; vm_compute; reflexivity.
Qed.

(** four teams of two departments, three projects, two filtered iterations *)
Definition ut_reward : list Qc := map zq [-1; -2; -3; -1]%Z.
Definition ut_R : list (list Qc) := map (map zq) [[3; 1; -2; 2]; [1; -4; 2; 2]; [0; 1; 3; -1]]%Z.
Lemma ut_moderate : moderate 4 3 ut_R ut_reward (zq 1000000).
Proof.
  apply within_moderate with (zq 5); [discriminate| |discriminate].
  split; [discriminate|]. split.
  - intros x Hx. do 4 (destruct x as [|x]; [split; discriminate|]). lia.
  - intros p x Hp Hx. do 3 (destruct p as [|p]; [do 4 (destruct x as [|x]; [split; discriminate|]); lia|]). lia.
Qed.
Example C91_kc_example :
  both_pass 4 3 (ut_kc_iterate 2 true (Fin (Q2Qc (1 # 2))) [2; 2] [1] (map Fin ut_reward) (inj ut_R)) /\
  option_map (fun r => fst (fst (fst r))) (four_files (ut_kc_iterate 2 true (Fin (Q2Qc (1 # 2))) [2; 2] [1] (map Fin ut_reward) (inj ut_R)))
  = Some (map VFin [2; -4; -2; 0]%Q).
Proof.
  split; [|vm_compute; reflexivity].
  apply C91_kc_partial with (W := [[1; 1; 0; 0]; [0; 0; 1; 1]]); [discriminate|discriminate|repeat constructor| | | | | | | | | | |].
  - intros b Hb Hs d Hd. cbn in Hb, Hd. repeat (destruct Hb as [<- |Hb]; [destruct d as [|[|[|d]]]; try lia; cbn; lia|]). destruct Hb.
  - vm_compute; reflexivity.
  - reflexivity.
  - split; [reflexivity|repeat constructor].
  - lia.
  - lia.
  - cbn; lia.
  - discriminate.
  - lia.
  - intros _. split; [reflexivity|discriminate].
  - exact ut_moderate.
Qed.
(** with as many projects as teams the two programs differ *)
Theorem C91_kc_refuted : exists caps types reward R, 
  caps <> [] /\ types <> [] /\ Forall (fun ty => 1 <= ty <= 5) types /\
  room caps types (list_prod (units (length caps)) (units (length caps))) /\ ut_teams caps types = Some (2, [[1; 1]]) /\
  length reward = 2 /\ shape 2 2 R /\ moderate 2 2 R reward (zq 1000000) /\
  four_files (ut_kc_iterate 2 false n0 caps types (map Fin reward) (inj R))
  = Some ([VFin (-5); VFin (-5)], [VFin (-3); VFin 1], [VFin (-5); VFin 5; VFin 7; VFin (-7)], [VFin (-4); VFin 5; VFin 5; VFin (-1)]).
Proof.
  exists [2], [1], (map zq [-1; -2]%Z), (map (map zq) [[-3; 2]; [1; 1]]%Z). split; [discriminate|]. split; [discriminate|].
  split; [repeat constructor|]. split.
  { intros b Hb Hs d Hd. cbn in Hb, Hd. repeat (destruct Hb as [<- |Hb]; [destruct d as [|[|d]]; try lia; cbn; lia|]). destruct Hb. }
  split; [vm_compute; reflexivity|]. split; [reflexivity|]. split; [split; [reflexivity|repeat constructor]|].
  split; [|vm_compute; reflexivity].
  apply within_moderate with (zq 5); [discriminate| |discriminate]. split; [discriminate|]. split.
  - intros x Hx. do 2 (destruct x as [|x]; [split; discriminate|]). lia.
  - intros p x Hp Hx. do 2 (destruct p as [|p]; [do 2 (destruct x as [|x]; [split; discriminate|]); lia|]). lia.
Qed.

(** the same teams from the object *)
Definition ut_rp : list (list Qc) := map (map zq) [[3; 1; -2]; [2; 1; -4]; [2; 2; 0]; [1; 3; -1]]%Z.
Example C91_kc_sample_example :
  both_pass 4 3 (ut_kc_sample 2 true (Fin (Q2Qc (1 # 2))) [2; 2] [1] (map Fin ut_reward) (inj ut_rp)) /\
  option_map (fun r => fst (fst (fst r))) (four_files (ut_kc_sample 2 true (Fin (Q2Qc (1 # 2))) [2; 2] [1] (map Fin ut_reward) (inj ut_rp)))
  = Some (map VFin [1; -1; 2; 1]%Q).
Proof.
  split; [|vm_compute; reflexivity].
  destruct (kc_initialize [2; 2] [1]) as [o|] eqn:E; [|vm_compute in E; discriminate].
  assert (Eo : o_combos o = [(1, 1); (1, 2); (2, 2)]) by (vm_compute in E; injection E as <-; auto).
  apply (C91_kc_sample_partial 2 true (Q2Qc (1 # 2)) [2; 2] [1] ut_reward ut_rp 3 o [(1, 1, 1); (1, 1, 1); (2, 2, 1); (2, 2, 1)]);
    auto; try discriminate; try (cbn; lia).
  - repeat constructor.
  - rewrite Eo. intros b Hb. cbn in Hb. unfold sensible, fits.
    repeat (destruct Hb as [<- |Hb]; [cbn; intros S d Hd; assert (d = 1 \/ d = 2) as [-> | ->] by lia; cbn; lia|]). destruct Hb.
  - rewrite Eo. exists (count_fn [2; 2]). split; [|vm_compute; reflexivity].
    intros b Hb. apply count_ok. cbn in Hb. unfold in_range. repeat (destruct Hb as [<- |Hb]; [cbn; lia|]). destruct Hb.
  - split; [reflexivity|repeat constructor].
  - intros _. split; [reflexivity|discriminate].
  - apply within_moderate with (zq 5); [discriminate| |discriminate]. split; [discriminate|]. split.
    + intros x Hx. cbn in Hx. do 4 (destruct x as [|x]; [split; discriminate|]). lia.
    + intros p x Hp Hx. cbn in Hx. do 3 (destruct p as [|p]; [do 4 (destruct x as [|x]; [split; discriminate|]); lia|]). lia.
Qed.

Print Assumptions C91_ksat_partial.
Print Assumptions C91_tsp_relaxed_partial.
Print Assumptions C91_tsp_augmented_partial.
Print Assumptions C91_kc_partial.
Print Assumptions C91_kc_sample_partial.
Print Assumptions C91_ksat_refuted.
Print Assumptions C91_tsp_refuted.
Print Assumptions C91_kc_refuted.
