(** * C92, C93: rewards of moderate size.  KC-MWM then is plain min-sum, and its messages stay in a fixed range. *)
From Verif Require Import NumFacts Arr ArrFacts Spec SpecRun SpecRange MinSum M_InOut M_PyRef M_Runs M_PyRef_Run M_Kc_Trellis M_Kc_Py
  P_Tsp_Constraints P_Kc_Trellis P_Equality P_InOut P_Runs P_Schedule P_Kc_Run P_PyRef_Run P_Kc_Bound P_Kc_Range T_InOut T_PyRef T_PyRef_Run T_Schedule T_Scale.
From Verif Require Import Num.
Local Open Scope nat_scope.

(** C92.  As C50, without the constant. *)
Theorem C92_min_sum :
  forall (iters T D P : nat) (W : list (list nat)) (R : list (list Qc)) (reward : list Qc)
         (caps : list nat) (flag : bool) (alpha : Qc),
    kc_instance T D P W R reward caps -> (flag = true -> 0 <= alpha /\ alpha <= 1)%Qc -> moderate T P R reward (zq 1000000) ->
    exists (ext pairs : list Qc) (K EO Dm X : nat -> list (list Qc)) (TO : nat -> list Qc)
           (CE EP PE : nat -> list (list Qc)) (OT : nat -> list Qc),
      package_kc T D P W (inj R) (map Fin reward) caps iters flag (Fin alpha)
        = Some (map Fin ext, zip_with nadd (map Fin ext) (map Fin reward), map Fin pairs) /\
      length ext = T /\ length pairs = P * T /\
      (* start *)
      (forall d x, d < D -> x < T ->
         qat (K 0) d x = if takes_part W d x then nth x reward 0%Qc else 0%Qc) /\
      (forall p x, qat (EO 0) p x = 0%Qc) /\
      (forall t, shape P T (EP t)) /\
      (* iteration [t] *)
      (forall t,
         (forall d ws cap, nth_error W d = Some ws -> nth_error caps d = Some cap ->
            (forall i x, nth_error (participants T ws) i = Some x ->
               minsum_message (within (map (fun x => nth x ws 0) (participants T ws)) cap)
                 (map (fun x => qat (K t) d x) (participants T ws)) i (Fin (qat (Dm t) d x))) /\
            (forall x, x < T -> takes_part W d x = false -> qat (Dm t) d x = 0%Qc)) /\
         (forall d x, d < D -> x < T ->
            qat (X t) d x = filtered flag alpha (fun i => qat (Dm i) d x) t) /\
         (forall x, x < T ->
            nth x (TO t) 0%Qc = (nth x reward 0 + qsum (map (fun d => qat (X t) d x) (seq 0 D)))%Qc) /\
         (forall p x, p < P -> x < T ->
            minsum_message coupled (nth x (TO t) 0%Qc :: col (EO t) P x) (S p) (Fin (qat (CE t) p x)) /\
            qat (EP t) p x = (qat (CE t) p x + qat R p x)%Qc /\
            minsum_message at_most_one (nth p (EP t) []) x (Fin (qat (PE t) p x)) /\
            qat (EO (t + 1)) p x = (qat (PE t) p x + qat R p x)%Qc) /\
         (forall x, x < T ->
            minsum_message coupled (nth x (TO t) 0%Qc :: col (EO (t + 1)) P x) 0 (Fin (nth x (OT t) 0%Qc))) /\
         (forall d x, d < D -> x < T -> qat (K (t + 1)) d x =
            if takes_part W d x then
              (nth x reward 0 + nth x (OT t) 0 +
               qsum (map (fun d' => qat (X t) d' x)
                      (filter (fun d' => takes_part W d' x) (others d (seq 0 D)))))%Qc
            else 0%Qc)) /\
      (* result *)
      (forall x, x < T -> nth x ext 0%Qc = if iters =? 0 then 0%Qc else
         (nth x (OT (iters - 1)%nat) 0 + qsum (map (fun d => qat (X (iters - 1)%nat) d x) (seq 0 D)))%Qc) /\
      (forall p x, p < P -> x < T -> nth (p * T + x) pairs 0%Qc = if iters =? 0 then 0%Qc else
         (qat (CE (iters - 1)%nat) p x + qat (PE (iters - 1)%nat) p x + qat R p x)%Qc).
Proof.
  intros iters T D P W R reward caps flag alpha (HW & HR & Hr & Hc & Hp & Hfit & Htwo) Ha Mo.
  destruct (C50_kc_run iters T D P W R reward caps flag alpha HW HR Hr Hc Hp Hfit Htwo) as
    (ext & pairs & K & EO & Dm & X & TO & CE & EP & PE & OT & E & Le & Lp & K0 & EO0 & SE & St & Re & Rp).
  exists ext, pairs, K, EO, Dm, X, TO, CE, EP, PE, OT.
  split; [unfold package_kc; rewrite E; reflexivity|]. do 5 (split; [assumption|]). split; [|auto].
  intros t. pose proof (St t) as (S1 & S2 & S3 & S4 & S5 & S6). do 4 (split; [assumption|]). split; [|exact S6].
  intros x Hx. apply (OT_exact T D P W R reward caps flag alpha) with (K := K) (Dm := Dm) (X := X) (CE := CE) (EP := EP) (PE := PE); auto.
Qed.

Lemma zip_Fin a b : zip_with nadd (map Fin a) (map Fin b) = map Fin (zip_with Qcplus a b).
Proof. revert b. induction a as [|x a IH]; intros [|y b]; [reflexivity..|]. change (Fin (x + y)%Qc :: zip_with nadd (map Fin a) (map Fin b) = Fin (x + y)%Qc :: map Fin (zip_with Qcplus a b)). now rewrite IH. Qed.
(** C93.  Outputs are bounded, by the same numbers for every number of iterations. *)
Theorem C93_outputs :
  forall (iters T D P : nat) (W : list (list nat)) (R : list (list Qc)) (reward : list Qc)
         (caps : list nat) (flag : bool) (alpha B : Qc),
    kc_instance T D P W R reward caps -> P <> 0 -> (flag = true -> 0 <= alpha /\ alpha <= 1)%Qc -> rewards_within T P R reward B ->
    exists ext intr pairs : list Qc,
      package_kc T D P W (inj R) (map Fin reward) caps iters flag (Fin alpha) = Some (map Fin ext, map Fin intr, map Fin pairs) /\
      Forall (fun v => (- B <= v /\ v <= (zq 3 + zq 2 * zq (Z.of_nat (D * T))) * B)%Qc) ext /\
      Forall (fun v => (- (zq 2 * B) <= v /\ v <= (zq 4 + zq 2 * zq (Z.of_nat (D * T))) * B)%Qc) intr /\
      Forall (fun v => (- (zq 2 * B) <= v /\ v <= (zq 4 + zq 2 * zq (Z.of_nat (D * T))) * B)%Qc) pairs.
Proof.
  intros iters T D P W R reward caps flag alpha B (HW & HR & Hr & Hc & Hp & Hfit & Htwo) HP Ha (HB & Br & BR).
  destruct (C50_kc_run iters T D P W R reward caps flag alpha HW HR Hr Hc Hp Hfit Htwo) as
    (ext & pairs & K & EO & Dm & X & TO & CE & EP & PE & OT & E & Le & Lp & K0 & EO0 & SE & St & Re & Rp).
  exists ext, (zip_with Qcplus ext reward), pairs. split.
  { unfold package_kc. rewrite E. cbn [bind]. now rewrite zip_Fin. }
  set (Y := (qn T * (B + B))%Qc).
  assert (Cst : (zq 2 * zq (Z.of_nat (D * T)) * B = qn D * Y)%Qc).
  { unfold Y, qn. rewrite Nat2Z.inj_mul, P_Float.zq_mul. replace (zq 2) with (1 + 1)%Qc by reflexivity. ring. }
  assert (DY : (0 <= qn D * Y)%Qc).
  { pose proof (Y_nonneg T B HB) as H. fold Y in H. rewrite <- (Qcmult_0_l Y). apply Qcmult_le_compat_r; [apply qn_nonneg|exact H]. }
  replace (zq 4) with (1 + 1 + (1 + 1))%Qc by reflexivity. replace (zq 3) with (1 + 1 + 1)%Qc by reflexivity.
  assert (two : zq 2 = (1 + 1)%Qc) by reflexivity.
  assert (Be : forall x, x < T -> (- B <= nth x ext 0 /\ nth x ext 0 <= B + B + B + qn D * Y)%Qc).
  { intros x Hx. rewrite Re by auto. destruct (iters =? 0); [split; qlra|].
    destruct (X_sum T D P W R reward caps flag alpha HW Hc Hfit Ha K EO Dm X TO CE EP PE OT EO0 K0 SE St B Br BR HP HB (iters - 1) x Hx).
    destruct (OT_range T D P W R reward caps flag alpha HW Hc Ha K EO Dm X TO CE EP PE OT EO0 SE St B Br BR HP HB (iters - 1) x Hx).
    unfold Y in *. split; qlra. }
  split; [|split].
  - apply Forall_forall. intros v I. apply (In_nth _ _ 0%Qc) in I as (x & Hx & <-). rewrite Le in Hx. destruct (Be x Hx). split; qlra.
  - apply Forall_forall. intros v I. apply (In_nth _ _ 0%Qc) in I as (x & Hx & <-). rewrite zip_with_length, Le, Hr, Nat.min_id in Hx.
    destruct (Be x Hx). destruct (Br x Hx).
    replace (nth x (zip_with Qcplus ext reward) 0%Qc) with (nth x ext 0 + nth x reward 0)%Qc; [rewrite two in *; split; qlra|].
    clear -Hx Le Hr. revert x reward T Hr Le Hx. induction ext as [|a ext IH]; intros [|x] [|b r] T Hr Le Hx; cbn in *; try lia; [reflexivity|].
    destruct T; [lia|]. apply (IH x r T); lia.
  - apply Forall_forall. intros v I. apply (In_nth _ _ 0%Qc) in I as (k & Hk & <-). rewrite Lp in Hk.
    assert (HT : T <> 0) by (intros ->; lia).
    rewrite (Nat.div_mod k T HT), (Nat.mul_comm T). assert (Hx : k mod T < T) by (apply Nat.mod_upper_bound; auto).
    assert (Hpp : k / T < P) by (apply Nat.div_lt_upper_bound; lia). rewrite Rp by auto.
    destruct (iters =? 0); [rewrite two in *; split; qlra|].
    destruct (CE_range T D P W R reward caps flag alpha HW Hc Hfit Ha K EO Dm X TO CE EP PE OT EO0 K0 SE St B Br BR HP HB (iters - 1) _ _ Hpp Hx).
    destruct (PE_range T D P W R reward caps flag alpha HW Hc Ha K EO Dm X TO CE EP PE OT SE St B Br BR HB (iters - 1) _ _ Hpp Hx).
    destruct (BR _ _ Hpp Hx). unfold Y in *. rewrite two in *. split; qlra.
Qed.

(** ** C55 and C66 for such rewards: conditions on the inputs instead of on the messages *)
Lemma instance_parts T D P W R reward caps : kc_instance T D P W R reward caps ->
  (forall d ws, nth_error W d = Some ws -> participants T ws <> []) /\
  (forall d1 d2 d3 l, d1 < D -> d2 < D -> d3 < D -> In l (nth d1 (map (participants T) W) []) ->
     In l (nth d2 (map (participants T) W) []) -> In l (nth d3 (map (participants T) W) []) -> d1 = d2 \/ d1 = d3 \/ d2 = d3).
Proof.
  intros (HW & HR & Hr & Hc & Hp & Hfit & Htwo). split.
  - intros d ws Hd. destruct (Hp d ws Hd) as (t & w & Gt & Nw).
    assert (Lw : length ws = T) by (eapply shape_row; eauto).
    intros X. assert (I : In t (participants T ws)); [|rewrite X in I; destruct I].
    unfold participants. apply filter_In. assert (t < length ws) by (apply nth_error_Some; congruence).
    split; [apply in_seq; lia|]. rewrite (nth_error_nth _ _ _ Gt). apply negb_true_iff, Nat.eqb_neq; auto.
  - assert (In_part : forall d t, d < D -> In t (nth d (map (participants T) W) []) -> nth t (nth d W []) 0 <> 0).
    { intros d t Hd Hin. rewrite (nth_indep _ [] (participants T [])) in Hin by (rewrite map_length; destruct HW; lia).
      rewrite map_nth in Hin. unfold participants in Hin. apply filter_In in Hin. destruct Hin as [_ Hin].
      apply negb_true_iff, Nat.eqb_neq in Hin. exact Hin. }
    intros d1 d2 d3 l H1 H2 H3 I1 I2 I3. apply In_part in I1, I2, I3; auto.
    destruct (Nat.eq_dec d1 d2); auto. destruct (Nat.eq_dec d1 d3); auto. destruct (Nat.eq_dec d2 d3); auto. exfalso.
    assert (Srt : exists a b c, a < b < c /\ c < D /\ nth l (nth a W []) 0 <> 0 /\ nth l (nth b W []) 0 <> 0 /\ nth l (nth c W []) 0 <> 0).
    { destruct (Nat.lt_total d1 d2) as [|[|]], (Nat.lt_total d1 d3) as [|[|]], (Nat.lt_total d2 d3) as [|[|]]; try lia;
        first [exists d1, d2, d3; repeat split; auto; lia | exists d1, d3, d2; repeat split; auto; lia
             | exists d2, d1, d3; repeat split; auto; lia | exists d2, d3, d1; repeat split; auto; lia
             | exists d3, d1, d2; repeat split; auto; lia | exists d3, d2, d1; repeat split; auto; lia]. }
    destruct Srt as (a & b & c & Hab & Hc' & N1 & N2 & N3). destruct (Htwo a b c l Hab Hc') as [|[|]]; auto.
Qed.
(** no iterate of the pure Python run has a message above the constant *)
Lemma kc_iterates_small T D P W R reward caps flag alpha : kc_instance T D P W R reward caps -> 2 <= P -> 2 <= T -> D <> 0 -> P <> T ->
  (flag = true -> 0 < alpha /\ alpha <= 1)%Qc -> moderate T P R reward (zq 1000000) ->
  forall i st, 1 <= i -> py_kc_iterate i flag (Fin alpha) T D P caps W (map Fin reward) (inj R) = Some st ->
    Forall (fun v => nleb v (zn 1000000) = true) (kp_oric2team st).
Proof.
  intros Inst HP HT HD HPT Ha Mo i st Hi E. destruct (instance_parts _ _ _ _ _ _ _ Inst) as (Q1 & Q2).
  destruct Inst as (HW & HR & Hr & Hc & Hp & Hfit & Htwo).
  destruct (py_kc_initial_ok T D W reward HW Hr) as (K & EK & SK & HK).
  unfold py_kc_iterate in E. rewrite EK in E. cbn [bind] in E.
  apply (kc_small T D P flag alpha W R reward caps (inj K)) with (c := zq 1000000) (K := K) (i := i); auto.
  - intros F. destruct (Ha F). split; [apply Qclt_le_weak|]; auto.
  - intros F. destruct (Ha F) as (A & _). intros ->. discriminate.
  - apply Qcle_refl.
  - intros d x Hd Hx Z. rewrite HK by auto. unfold takes_part. rewrite Z. reflexivity.
Qed.
Theorem C55_kc_bounded_partial :
  forall (T D P : nat) (W : list (list nat)) (R : list (list Qc)) (reward : list Qc) (caps : list nat)
         (iters : nat) (flag : bool) (alpha : Qc),
    kc_instance T D P W R reward caps -> 2 <= P -> 2 <= T -> D <> 0 ->
    (* missing: as many projects as teams, where Python uses another project constraint; no iteration, where Python has no
       result; filtering with a factor outside (0, 1]; rewards whose differences can exceed the constant 1000000 of C++ *)
    P <> T -> 1 <= iters -> (flag = true -> 0 < alpha /\ alpha <= 1)%Qc -> moderate T P R reward (zq 1000000) ->
    exists r, package_kc T D P W (inj R) (map Fin reward) caps iters flag (Fin alpha) = Some r /\
      reference_kc T D P W (inj R) (map Fin reward) caps iters flag (Fin alpha) = Some r.
Proof.
  intros T D P W R reward caps iters flag alpha Inst HP HT HD HPT Hi Ha Mo. apply C55_kc_runs_partial; auto.
  - intros F. destruct (Ha F) as (A & _). intros ->. discriminate.
  - intros i st (Hi' & _). apply kc_iterates_small; auto.
Qed.

Definition scale_result (c : Qc) (r : list num * list num * list num) : list num * list num * list num :=
  (scaled_vector c (fst (fst r)), scaled_vector c (snd (fst r)), scaled_vector c (snd r)).
Lemma scale_down c T D P W R reward caps iters flag alpha m : kc_instance T D P W R reward caps ->
  (flag = true -> 0 <= alpha /\ alpha <= 1)%Qc -> (0 < c)%Qc -> (c <= 1)%Qc -> (0 <= m)%Qc -> (m < zq 1000000)%Qc -> moderate T P R reward m ->
  package_kc T D P W (inj (map (map (Qcmult c)) R)) (map Fin (map (Qcmult c) reward)) caps iters flag (Fin alpha) =
  option_map (scale_result c) (package_kc T D P W (inj R) (map Fin reward) caps iters flag (Fin alpha)).
Proof.
  intros Inst Ha Hc0 Hc1 Hm0 Hm1 Mo. destruct (instance_parts _ _ _ _ _ _ _ Inst) as (Q1 & Q2).
  pose proof Inst as (HW & HR & Hr & Hc & Hp & Hfit & Htwo).
  destruct (C50_kc_run iters T D P W R reward caps flag alpha HW HR Hr Hc Hp Hfit Htwo) as
    (ext & pairs & _ & _ & _ & _ & _ & _ & _ & _ & _ & E & Le & _).
  unfold package_kc. set (nz := py_nonzero W) in *. rewrite E. cbn [bind option_map].
  pose proof (C66_kc_partial c iters D T P (concat (py_team_messages W (map Fin reward))) caps (map Fin reward) (concat (inj R)) (concat W)
    (concat (py_pad nz)) (map (@length nat) nz) (list_max (map (@length nat) nz)) flag (Fin alpha) (map Fin ext) (map Fin pairs) Hc0 Hc1) as H.
  assert (V : forall v, scaled_vector c (map Fin v) = map Fin (map (Qcmult c) v)).
  { intros v. unfold scaled_vector. rewrite !map_map. reflexivity. }
  assert (Vc : forall M, scaled_vector c (concat (inj M)) = concat (inj (map (map (Qcmult c)) M))).
  { intros M. unfold scaled_vector. rewrite concat_map. f_equal. unfold inj. rewrite !map_map. apply map_ext. intros r. apply V. }
  assert (Vt : scaled_vector c (concat (py_team_messages W (map Fin reward))) = concat (py_team_messages W (map Fin (map (Qcmult c) reward)))).
  { unfold scaled_vector. rewrite concat_map. f_equal. unfold py_team_messages. rewrite map_map. apply map_ext. intros row. rewrite map_map.
    apply map_ext. intros j. rewrite <- V. assert (Z : scaled c n0 = n0) by (cbn; now rewrite Qcmult_0_r).
    destruct (negb _); [|exact Z]. unfold scaled_vector. rewrite <- Z at 2. symmetry. apply map_nth. }
  rewrite Vt, V, Vc in H. rewrite H; [| |exact E].
  - cbn [bind]. unfold scale_result. cbn [fst snd]. rewrite !V, !zip_Fin, V. do 3 f_equal. f_equal.
    clear. revert reward. induction ext as [|x e IH]; intros [|y r]; [reflexivity..|].
    change ((c * x + c * y)%Qc :: zip_with Qcplus (map (Qcmult c) e) (map (Qcmult c) r) = (c * (x + y))%Qc :: map (Qcmult c) (zip_with Qcplus e r)).
    rewrite IH. f_equal. ring.
  - intros inp Ei. destruct (C26_kc_inputs T D P W (inj R) (map Fin reward) caps) as (inp' & E' & A1 & A2 & A3 & A4 & A5 & A6 & A7);
      auto using P_Tsp_Constraints.shape_inj. { rewrite map_length; auto. }
    cbn zeta in E'. fold nz in E'. rewrite Ei in E'. injection E' as <-.
    assert (En : nz = map (participants T) W).
    { unfold nz, py_nonzero. apply map_ext_in. intros r Hin. unfold participants.
      destruct HW as [L F]. rewrite Forall_forall in F. rewrite (F r Hin). reflexivity. }
    assert (Eq : inp = {| kc_reward_team := map Fin reward; kc_team2knapsack := kc_team2knapsack inp;
      kc_weights := W; kc_reward_project := inj R; kc_max_state := caps; kc_nonzero := map (participants T) W |}).
    { destruct inp; cbn in *; subst; reflexivity. }
    intros t st _ Es. rewrite Eq, En in Es. cbn [kc_team2knapsack] in Es.
    destruct (kc_run_below T D P flag alpha W R reward caps (kc_team2knapsack inp) HW HR Hr Hc) with (c := m) (i := t) (s := st) as (F & Lo & _); auto.
    { apply finm_of; auto. intros d x Hd Hx. destruct (ArrFacts.get2_lt _ _ _ d x HW Hd Hx) as [w Gw].
      rewrite (A7 d x w (Fin (nth x reward 0%Qc)) Gw); [destruct (w =? 0); eexists; reflexivity|]. apply (P_Equality.get_mapFin _ _ T); auto. }
    destruct F as (_ & _ & _ & _ & _ & F6 & _). destruct (finv_unv _ _ F6) as (EO & LO). rewrite EO.
    apply Forall_map, Forall_forall. intros q Iq. apply (In_nth _ _ 0%Qc) in Iq as (x & Hx & <-). rewrite LO in Hx.
    specialize (Lo x Hx). unfold oric_cap, zn. cbn [nlt]. destruct (qltb_spec (nth x (unv (kc_oric2team st)) 0%Qc) (zq 1000000)); [reflexivity|qlra].
Qed.
Lemma moderate_scaled c T D P W R reward caps m : kc_instance T D P W R reward caps -> (0 < c)%Qc -> moderate T P R reward m ->
  kc_instance T D P W (map (map (Qcmult c)) R) (map (Qcmult c) reward) caps /\
  moderate T P (map (map (Qcmult c)) R) (map (Qcmult c) reward) (c * m).
Proof.
  intros (HW & (L & F) & Hr & Rest) Hc Mo. split.
  - split; [exact HW|]. split; [split; [now rewrite map_length|]|split; [now rewrite map_length|exact Rest]].
    apply Forall_map. eapply Forall_impl; [|exact F]. intros r <-. apply map_length.
  - assert (N1 : forall y, nth y (map (Qcmult c) reward) 0%Qc = (c * nth y reward 0)%Qc).
    { intros y. rewrite <- (Qcmult_0_r c) at 1. apply map_nth. }
    assert (N2 : forall p y, qat (map (map (Qcmult c)) R) p y = (c * qat R p y)%Qc).
    { intros p y. unfold qat. change (@nil Qc) with (map (Qcmult c) []) at 1. rewrite map_nth. rewrite <- (Qcmult_0_r c) at 1. apply map_nth. }
    assert (Le : forall a b, (a <= b)%Qc -> (c * a <= c * b)%Qc).
    { intros a b H. rewrite !(Qcmult_comm c). apply Qcmult_le_compat_r; [exact H|apply Qclt_le_weak, Hc]. }
    intros x Hx. destruct (Mo x Hx) as (p & Hp & B1 & B2). exists p. split; [exact Hp|]. split; [rewrite N2; auto|].
    intros y Hy N. rewrite !N2, N1. specialize (Le _ _ (B2 y Hy N)). qlra.
Qed.
Theorem C66_kc_bounded_partial :
  forall (c : Qc) (T D P : nat) (W : list (list nat)) (R : list (list Qc)) (reward : list Qc) (caps : list nat)
         (iters : nat) (flag : bool) (alpha m : Qc),
    kc_instance T D P W R reward caps -> (0 < c)%Qc -> (flag = true -> 0 <= alpha /\ alpha <= 1)%Qc ->
    (* missing: rewards whose differences reach the constant 1000000 in one of the units *)
    (0 <= m)%Qc -> (m < zq 1000000)%Qc -> (c * m < zq 1000000)%Qc -> moderate T P R reward m ->
    package_kc T D P W (inj (map (map (Qcmult c)) R)) (map Fin (map (Qcmult c) reward)) caps iters flag (Fin alpha) =
    option_map (scale_result c) (package_kc T D P W (inj R) (map Fin reward) caps iters flag (Fin alpha)).
Proof.
  intros c T D P W R reward caps iters flag alpha m Inst Hc Ha Hm H1 H2 Mo.
  destruct (Qclt_le_dec 1 c) as [Gt|Le]; [|now apply scale_down with m].
  assert (Nc : c <> 0%Qc) by (intros ->; discriminate).
  assert (Ic : (0 < / c)%Qc).
  { destruct (Qclt_le_dec 0 (/ c)) as [|L]; [assumption|]. exfalso. pose proof (Qcmult_le_compat_r _ _ c L (Qclt_le_weak _ _ Hc)) as Q.
    rewrite Qcmult_comm, Qcmult_inv_r, Qcmult_0_l in Q by auto. apply (Qcle_not_lt _ _ Q). reflexivity. }
  assert (I1 : (/ c <= 1)%Qc).
  { pose proof (Qcmult_le_compat_r _ _ (/ c)%Qc (Qclt_le_weak _ _ Gt) (Qclt_le_weak _ _ Ic)) as Q.
    rewrite Qcmult_inv_r, Qcmult_1_l in Q by auto. exact Q. }
  destruct (moderate_scaled c _ _ _ _ _ _ _ _ Inst Hc Mo) as (Inst' & Mo').
  assert (Cm : (0 <= c * m)%Qc).
  { rewrite Qcmult_comm, <- (Qcmult_0_l c). apply Qcmult_le_compat_r; [exact Hm|apply Qclt_le_weak, Hc]. }
  pose proof (scale_down (/ c)%Qc _ _ _ _ _ _ _ iters flag alpha _ Inst' Ha Ic I1 Cm H2 Mo') as E.
  assert (B : forall v, map (Qcmult (/ c)) (map (Qcmult c) v) = v).
  { intros v. rewrite map_map. rewrite <- (map_id v) at 2. apply map_ext. intros a. rewrite Qcmult_assoc, (Qcmult_comm (/ c)), Qcmult_inv_r by auto. ring. }
  rewrite B in E. replace (map (map (Qcmult (/ c))) (map (map (Qcmult c)) R)) with R in E
    by (rewrite map_map; rewrite <- (map_id R) at 1; apply map_ext; intros r; symmetry; apply B).
  rewrite E. clear E. destruct (package_kc T D P W (inj (map (map (Qcmult c)) R)) _ caps iters flag (Fin alpha)) as [((a & b) & d)|]; [|reflexivity].
  assert (V : forall v, scaled_vector c (scaled_vector (/ c) v) = v).
  { intros v. unfold scaled_vector. rewrite map_map. rewrite <- (map_id v) at 2. apply map_ext. intros [q| | |]; cbn; auto.
    f_equal. rewrite Qcmult_assoc, Qcmult_inv_r by auto. ring. }
  cbn [option_map]. unfold scale_result. cbn [fst snd]. now rewrite !V.
Qed.

(** ** Examples *)
Lemma kc3_within : rewards_within 3 2 (kcR (-4)%Z) kc_reward3 (zq 5).
Proof.
  split; [discriminate|]. split.
  - intros x Hx. do 3 (destruct x as [|x]; [split; discriminate|]). lia.
  - intros p x Hp Hx. do 2 (destruct p as [|p]; [do 3 (destruct x as [|x]; [split; discriminate|]); lia|]). lia.
Qed.
(** rewards between -5 and 5, three filtered iterations *)
Example C93_example :
  kc_instance 3 2 2 kcW (kcR (-4)%Z) kc_reward3 [3; 2] /\ rewards_within 3 2 (kcR (-4)%Z) kc_reward3 (zq 5) /\
  moderate 3 2 (kcR (-4)%Z) kc_reward3 (zq 15) /\ moderate 3 2 (kcR (-4)%Z) kc_reward3 (zq 1000000) /\
  option_map (fun r => map view (fst (fst r)))
    (package_kc 3 2 2 kcW (inj (kcR (-4)%Z)) (map Fin kc_reward3) [3; 2] 3 true (Fin (Q2Qc (1 # 2))))
  = Some [VFin (-3); VFin (-23 # 8); VFin 7] /\
  option_map (fun r => map view (fst (fst r)))
    (package_kc 3 2 2 kcW (inj (map (map (Qcmult (zq 2))) (kcR (-4)%Z))) (map Fin (map (Qcmult (zq 2)) kc_reward3)) [3; 2] 3 true (Fin (Q2Qc (1 # 2))))
  = Some [VFin (-6); VFin (-23 # 4); VFin 14].
Proof.
  pose proof kc3_within as X.
  split; [apply kc_instance3; repeat constructor|]. split; [exact X|].
  split; [eapply within_moderate; [|exact X|]; [lia|discriminate]|]. split; [eapply within_moderate; [|exact X|]; [lia|discriminate]|].
  split; vm_compute; reflexivity.
Qed.
(** The factor of the filter matters: with factor 3 the outputs leave the range of [C93_outputs] after 6 iterations. *)
Example C93_factor_refuted :
  kc_instance 3 2 2 kcW (kcR (-4)%Z) kc_reward3 [3; 2] /\ rewards_within 3 2 (kcR (-4)%Z) kc_reward3 (zq 5) /\
  option_map (fun r => map view (fst (fst r)))
    (package_kc 3 2 2 kcW (inj (kcR (-4)%Z)) (map Fin kc_reward3) [3; 2] 6 true (zn 3)) = Some [VFin 12; VFin (-1621); VFin (-1911)].
Proof. split; [apply kc_instance3; repeat constructor|]. split; [exact kc3_within|]. vm_compute; reflexivity. Qed.

Print Assumptions C92_min_sum.
Print Assumptions C93_outputs.
Print Assumptions C55_kc_bounded_partial.
Print Assumptions C66_kc_bounded_partial.
Print Assumptions C93_factor_refuted.
