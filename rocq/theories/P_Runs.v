(** * Whole runs: finiteness and memory safety (KC-MWM and K-SAT). *)
From Verif Require Import Num NumFacts Arr ArrFacts Spec MinSum MinSumFacts.
From Verif Require Import M_Kc_Trellis P_Tsp_Constraints P_Kc_Trellis M_Ksat P_Ksat M_Equality P_Equality.
From Verif Require Import M_Knapsack P_Knapsack P_Team_Knapsack M_Filter P_Filter M_InOut P_InOut M_Runs.
Local Open Scope nat_scope.

(** a finite matrix of the given shape *)
Definition finm (n k : nat) (m : list (list num)) : Prop := exists Q, shape n k Q /\ m = inj Q.
Definition finv (n : nat) (v : list num) : Prop := exists q, length q = n /\ v = map Fin q.

Lemma map_repeat {A B} (f : A -> B) a n : map f (repeat a n) = repeat (f a) n.
Proof. induction n; cbn; congruence. Qed.
Lemma finm_zeros n k : finm n k (zeros n k).
Proof.
  exists (repeat (repeat 0%Qc k) n). split; [apply shape_repeat|]. unfold zeros, inj.
  rewrite !map_repeat. reflexivity.
Qed.
Lemma finv_zeros n : finv n (repeat n0 n).
Proof. exists (repeat 0%Qc n). rewrite repeat_length, map_repeat. auto. Qed.
Lemma finm_shape n k m : finm n k m -> shape n k m.
Proof. intros (Q & S & ->). apply shape_inj; auto. Qed.
Lemma finv_length n v : finv n v -> length v = n.
Proof. intros (q & L & ->). rewrite map_length; auto. Qed.
Lemma finm_of n k m : shape n k m -> (forall i j, i < n -> j < k -> exists q, get2 m i j = Some (Fin q)) ->
  finm n k m.
Proof. intros S H. destruct (fin_mat n k m S H) as (Q & SQ & E). exists Q; auto. Qed.
Lemma finv_of n v : length v = n -> (forall i, i < n -> exists q, get v i = Some (Fin q)) -> finv n v.
Proof. intros S H. destruct (fin_vec n v S H) as (Q & SQ & E). exists Q; auto. Qed.
Lemma finm_get n k m i j : finm n k m -> i < n -> j < k -> exists q, get2 m i j = Some (Fin q).
Proof. intros (Q & S & ->) Hi Hj. rewrite (get2_inj n k) by auto. eauto. Qed.
Lemma finm_row n k m i r : finm n k m -> get m i = Some r -> finv k r.
Proof.
  intros (Q & S & ->) Hr. unfold inj in Hr. rewrite get_map in Hr.
  destruct (get Q i) as [q|] eqn:E; [|discriminate]. injection Hr as <-. exists q; split; auto.
  eapply shape_row; eauto.
Qed.

(** ** K-SAT *)
Lemma alo_fin m : m <> [] -> exists q, alo m = Fin q.
Proof.
  intros H. rewrite (cmin_unique _ _ _ _ (cmin_alo m) (cmin_at_least_one m)).
  destruct (nmins_Fin m H) as (q & -> & _). unfold nmax, n0. destruct (nlt _ _); cbn [nadd]; eauto.
Qed.
Lemma clause_val_fin cs i s : 2 <= length cs -> i < length cs -> exists q, clause_val cs i s = Fin q.
Proof.
  intros H Hi. unfold clause_val. destruct (alo_fin (remove_at i cs)) as (q & ->).
  { intros E. pose proof (remove_at_length i cs Hi) as L. rewrite E in L. cbn in L. lia. }
  cbn. eauto.
Qed.

Section Ksat.
Variables (nv nc k : nat) (flag : bool) (alpha : Qc) (conx : list (list nat)) (types : list (list Z)).
Variables (used : list nat) (metrics : list Qc) (varconx : list (list nat)) (m0 : list (list num)).
Hypothesis Hk : 2 <= k.
Hypothesis Hc : length conx = nc.
Hypothesis Ht : length types = nc.
Hypothesis Hwf : forall c cx tys, get conx c = Some cx -> get types c = Some tys -> clause_wf nv k cx tys.
Hypothesis Hm : length metrics = nv.
Hypothesis Hv : length varconx = nv.
Hypothesis Hused : Forall (fun x => x < nv) used.
Hypothesis Hconn : forall x l, get varconx x = Some l -> Forall (fun c => c < nc) l.
Let inp := {| ks_used := used; ks_metrics := map Fin metrics; ks_conx := conx; ks_type := types;
              ks_var2clause := m0; ks_varconx := varconx |}.

Definition ksat_fin (st : ksat_state) : Prop :=
  finm nc nv (kst_var st) /\ finm nc nv (kst_dummy st) /\ finm nc nv (kst_old st) /\ finm nc nv (kst_msg st).

Lemma ksat_update_fin M out : finm nc nv M -> shape nc nv out ->
  exists out', ksat_update nc k M out conx types = Some out' /\ finm nc nv out'.
Proof.
  intros (Q & SQ & ->) HO. destruct (ksat_update_ok nc nv k Q out conx types) as (o & E & S & H); auto.
  exists o. split; auto. apply finm_of; auto. intros c v Hcc Hvv.
  destruct (get_lt conx c) as [cx Gc]; [lia|]. destruct (get_lt types c) as [ty Gt]; [lia|].
  destruct (H c cx ty Gc Gt) as [H1 H2]. destruct (Hwf c cx ty Gc Gt) as (L1 & L2 & ND & F & PM).
  destruct (in_dec Nat.eq_dec v cx) as [Hin|Hin].
  - apply In_nth_error in Hin. destruct Hin as [j Hj].
    assert (Hjk : j < k) by (rewrite <- L1; eapply get_Some_lt; exact Hj).
    destruct (get_lt (signs ty) j) as [s Hs]; [unfold signs; rewrite map_length; lia|].
    destruct (clause_val_fin (clause_costs Q c cx ty) j s) as (q & Eq).
    + unfold clause_costs. rewrite lit_costs_length; unfold signs; rewrite ?map_length; lia.
    + unfold clause_costs. rewrite lit_costs_length; unfold signs; rewrite ?map_length; lia.
    + exists q. rewrite (H1 j v s Hj Hs), Eq. reflexivity.
  - exists 0%Qc. apply H2; auto.
Qed.

Lemma variable_update_fin M out : finm nc nv M -> shape nc nv out ->
  exists out', variable_update nv M out used (map Fin metrics) varconx = Some out' /\ finm nc nv out'.
Proof.
  intros (Q & SQ & ->) HO.
  destruct (variable_update_ok nc nv Q metrics used varconx SQ Hm Hv Hused Hconn out HO) as (o & E & S & H1 & H2).
  exists o. split; auto. apply finm_of; auto. intros c v Hcc Hvv.
  destruct (in_dec Nat.eq_dec v used) as [Hu|Hu].
  - destruct (get_lt varconx v) as [l Gl]; [lia|].
    destruct (in_dec Nat.eq_dec c l) as [Hin|Hin].
    + apply In_nth_error in Hin. destruct Hin as [i Hi]. rewrite (H1 v l i c Hu Gl Hi). eauto.
    + exists 0%Qc. apply H2; auto. intros (_ & l' & G' & I'). congruence.
  - exists 0%Qc. apply H2; auto. tauto.
Qed.

Lemma filtering_fin a iter n kk dummy old out N :
  finm n kk dummy -> finm N kk old -> shape n kk out -> n <= N ->
  exists out' old', process_filtering flag (Fin a) iter n dummy old out = Some (out', old') /\
    finm n kk out' /\ finm N kk old'.
Proof.
  intros (Dm & S1 & ->) (Om & S2 & ->) S3 HN.
  destruct (process_filtering_ok flag a iter n N kk Dm Om out S1 S2 S3) as (Q & O' & E & SQ & SO & _); auto.
  exists (inj Q), (inj O'). split; auto. split; [exists Q|exists O']; auto.
Qed.

Lemma ksat_step_fin st iter : ksat_fin st ->
  exists st', ksat_step flag (Fin alpha) nv nc k inp st iter = Some st' /\ ksat_fin st'.
Proof.
  intros (A & B & C & D). unfold ksat_step. cbn [ks_conx ks_type ks_used ks_metrics ks_varconx inp].
  destruct (ksat_update_fin (kst_var st) (kst_dummy st)) as (d & E1 & F1); auto using finm_shape.
  rewrite E1; cbn [bind].
  destruct (filtering_fin alpha iter nc nv d (kst_old st) (kst_msg st) nc) as (m & o & E2 & F2 & F3); auto using finm_shape.
  rewrite E2; cbn [bind].
  destruct (variable_update_fin m (kst_var st)) as (v & E3 & F4); auto using finm_shape.
  rewrite E3; cbn [bind]. eexists; split; [reflexivity|]. split; [|split; [|split]]; auto.
Qed.

Lemma ksat_iterate_fin iters : finm nc nv m0 ->
  exists st ext, ksat_iterate flag (Fin alpha) nv nc k iters inp = Some (st, ext) /\ ksat_fin st /\ finv nv ext.
Proof.
  intros HM. unfold ksat_iterate.
  match goal with |- context [for_up 0 iters ?st0 ?bd] =>
    destruct (for_up_ind 0 iters st0 bd (fun i st => ksat_fin st)) as (st & E & H) end.
  - lia.
  - split; [|split; [|split]]; cbn; auto using finm_zeros.
  - intros i st Hi H. apply ksat_step_fin; auto.
  - rewrite E; cbn [bind]. destruct H as (A & B & C & (Q & SQ & EQ)).
    destruct (finv_zeros nv) as (z & Lz & Ez). rewrite EQ, Ez.
    destruct (ksat_extrinsic_ok nv nc Q z SQ Lz) as (q & E2 & L2 & _). rewrite E2; cbn [bind].
    exists st, (map Fin q). split; auto. split; [|exists q; auto].
    split; [|split; [|split]]; auto. exists Q; auto.
Qed.
End Ksat.

(** ** KC-MWM *)
Lemma finv_get n v i : finv n v -> i < n -> exists q, get v i = Some (Fin q).
Proof. intros (q & L & ->) Hi. rewrite (get_mapFin _ _ n) by auto. eauto. Qed.
Lemma nmin_fin a : notnan a -> a <> NInf -> exists q, nmin a n0 = Fin q.
Proof.
  intros H1 H2. destruct (nmin_cases a n0) as [E|E]; rewrite E; [|unfold n0; eauto].
  destruct a; eauto; congruence || discriminate.
Qed.
Lemma nmins_ninf l : nmins (map Fin l) <> NInf.
Proof.
  destruct l as [|a l]; [discriminate|]. destruct (nmins_Fin (a :: l)) as (q & -> & _); discriminate.
Qed.
Lemma nmin0_fin l : exists q, nmin (nmins (map Fin l)) n0 = Fin q.
Proof. apply nmin_fin; [apply nmins_notnan, Forall_Fin|apply nmins_ninf]. Qed.

Lemma finm_upd n k m i r : finm n k m -> finv k r -> finm n k (upd m i r).
Proof.
  intros (Q & S & ->) (q & L & ->). exists (upd Q i q). split; [apply shape_updr; auto|].
  symmetry. apply inj_upd.
Qed.

Section KcMwm.
Variables (T D P : nat) (flag : bool) (alpha : Qc).
Variables (W : list (list nat)) (R : list (list Qc)) (reward : list Qc) (caps : list nat).
Variable t0 : list (list num).
Hypothesis HW : shape D T W.
Hypothesis HR : shape P T R.
Hypothesis Hrew : length reward = T.
Hypothesis Hcaps : length caps = D.
Hypothesis Hpart : forall d ws, get W d = Some ws -> participants T ws <> [].
Hypothesis Hfit : forall d ws cap, get W d = Some ws -> get caps d = Some cap -> Forall (fun w => w <= cap) ws.
Let nzs := map (participants T) W.
Hypothesis Htwo : forall d1 d2 d3 l, d1 < D -> d2 < D -> d3 < D ->
  In l (nth d1 nzs []) -> In l (nth d2 nzs []) -> In l (nth d3 nzs []) -> d1 = d2 \/ d1 = d3 \/ d2 = d3.
Let sizes := map (@length nat) nzs.
Let inp := {| kc_reward_team := map Fin reward; kc_team2knapsack := t0; kc_weights := W;
              kc_reward_project := inj R; kc_max_state := caps; kc_nonzero := nzs |}.

Definition kc_fin (st : kc_state) : Prop :=
  finm D T (kc_t2k st) /\ finm D T (kc_dummy st) /\ finm D T (kc_extr_old st) /\ finm D T (kc_extr st) /\
  finv T (kc_team2oric st) /\ finv T (kc_oric2team st) /\
  finm P T (kc_eq2oric st) /\ finm P T (kc_oric2eq st) /\ finm P T (kc_eq2project st) /\
  finm P T (kc_project2eq st) /\ finv (P * T) (kc_intrinsic st).

Lemma nzs_get d ws : get W d = Some ws -> get nzs d = Some (participants T ws).
Proof. intros H. unfold nzs. rewrite get_map, H. reflexivity. Qed.

Lemma participants_incr ws : incr (participants T ws).
Proof. unfold participants. apply incr_filter, incr_seq. Qed.

Lemma kc_department_fin t2k iter dummy old extr d :
  finm D T t2k -> finm D T dummy -> finm D T old -> finm D T extr -> d < D ->
  exists dummy' old' extr', kc_department flag (Fin alpha) T inp sizes t2k iter (dummy, old, extr) d
      = Some (dummy', old', extr') /\ finm D T dummy' /\ finm D T old' /\ finm D T extr'.
Proof.
  intros F1 F2 F3 F4 Hd. unfold kc_department. cbn [kc_max_state kc_nonzero kc_weights inp].
  destruct (get_lt caps d) as [cap Gc]; [lia|]. rewrite Gc; cbn [bind].
  destruct (get_lt W d) as [ws Gw]; [destruct HW; lia|]. rewrite (nzs_get d ws Gw); cbn [bind].
  unfold sizes. rewrite get_map, (nzs_get d ws Gw); cbn [bind option_map]. rewrite Gw; cbn [bind].
  destruct (get_lt t2k d) as [ms Gm]; [apply finm_shape in F1; destruct F1; lia|]. rewrite Gm; cbn [bind].
  destruct (get_lt dummy d) as [row Gr]; [apply finm_shape in F2; destruct F2; lia|]. rewrite Gr; cbn [bind].
  destruct (finm_row _ _ _ _ _ F1 Gm) as (q & Lq & ->).
  assert (Lw : length ws = T) by (eapply shape_row; eauto).
  destruct (department_ok T cap ws q Lw Lq) with (out := row) as (o & E & Lo & A & B).
  { intros t Ht. pose proof (Hfit d ws cap Gw Gc) as X. rewrite Forall_forall in X. apply X, nth_In. lia. }
  { exact (Hpart d ws Gw). }
  { apply (finv_length T). exact (finm_row _ _ _ _ _ F2 Gr). }
  change (part T ws) with (participants T ws) in *. rewrite E; cbn [bind]. rewrite set_lt by (apply finm_shape in F2; destruct F2; lia). cbn [bind].
  assert (Fo : finv T o).
  { apply finv_of; auto. intros t Ht. destruct (in_dec Nat.eq_dec t (participants T ws)) as [Hin|Hin].
    - apply In_nth_error in Hin. destruct Hin as [p Hp]. destruct (A p t Hp) as (q' & G & _). eauto.
    - exists 0%Qc. apply B; auto. }
  assert (Fd : finm D T (upd dummy d o)) by (apply finm_upd; auto).
  destruct Fd as (Dm & SD & ED). destruct F3 as (Om & SO & EO). rewrite ED, EO.
  destruct (filter_at_ok flag alpha iter D D T d Dm Om extr SD SO) as (q2 & L2 & E2 & _); auto using finm_shape.
  rewrite E2; cbn [bind]. do 3 eexists; split; [reflexivity|]. split; [exists Dm; auto|]. split.
  - exists (if on flag alpha then upd Om d q2 else Om). split; auto. destruct (on flag alpha); auto. apply shape_updr; auto.
  - apply finm_upd; auto. exists q2; auto.
Qed.

Lemma kc_step_fin st iter : kc_fin st ->
  exists st', kc_step flag (Fin alpha) T D P inp sizes st iter = Some st' /\ kc_fin st'.
Proof.
  intros (F1 & F2 & F3 & F4 & F5 & F6 & F7 & F8 & F9 & F10 & F11). unfold kc_step.
  match goal with |- context [for_up 0 D ?st0 ?bd] =>
    destruct (for_up_ind 0 D st0 bd (fun i s => let '(a, b, c) := s in
      finm D T a /\ finm D T b /\ finm D T c)) as ([[dm ol] ex] & E & A & B & C) end.
  { lia. } { auto. }
  { intros i [[a b] c] Hi (G1 & G2 & G3).
    destruct (kc_department_fin (kc_t2k st) iter a b c i F1 G1 G2 G3) as (x & y & z & Ez & ?); [lia|].
    eexists; split; [exact Ez|]. auto. }
  rewrite E; cbn [bind]. cbn [kc_reward_team kc_reward_project kc_nonzero inp].
  destruct C as (X & SX & ->).
  destruct (team_to_oric_ok D T X reward (kc_team2oric st) SX Hrew (finv_length _ _ F5)) as (tq & E1 & L1 & _).
  rewrite E1; cbn [bind]. destruct F7 as (EO & SE & EEO). rewrite EEO.
  destruct (oric_to_project_ok P T EO tq R (kc_oric2eq st) (kc_eq2project st)) as (o1 & o2 & E2 & S1 & S2 & H2);
    auto using finm_shape.
  rewrite E2; cbn [bind].
  assert (Fo1 : finm P T o1).
  { apply finm_of; auto. intros p t Hp Ht. destruct (H2 p t Hp Ht) as [G _]. rewrite G. unfold oric_val.
    match goal with |- context [nmins (map Fin ?l)] => destruct (nmin0_fin l) as (q & ->) end. cbn. eauto. }
  assert (Fo2 : finm P T o2).
  { apply finm_of; auto. intros p t Hp Ht. destruct (H2 p t Hp Ht) as [_ G]. rewrite G. unfold oric_val.
    match goal with |- context [nmins (map Fin ?l)] => destruct (nmin0_fin l) as (q & ->) end. cbn. eauto. }
  destruct Fo2 as (Q2 & SQ2 & ->).
  destruct (project_update_ok P T Q2 (kc_project2eq st)) as (p2 & E3 & S3 & H3); auto using finm_shape.
  rewrite E3; cbn [bind].
  assert (Fp : finm P T p2).
  { apply finm_of; auto. intros p t Hp Ht. rewrite (H3 p t Hp Ht).
    match goal with |- context [nmins (map Fin ?l)] => destruct (nmin0_fin l) as (q & ->) end. cbn. eauto. }
  destruct Fp as (QP & SP & ->).
  destruct (project_to_oric_ok P T QP R (inj EO)) as (Q4 & E4 & S4 & _); auto using shape_inj.
  rewrite E4; cbn [bind].
  destruct (oric_to_team_ok P T Q4 (kc_oric2team st) S4 (finv_length _ _ F6)) as (ot & E5 & L5 & H5).
  rewrite E5; cbn [bind].
  assert (Fot : finv T ot).
  { apply finv_of; auto. intros t Ht. rewrite (H5 t Ht). unfold oric_cap, zn.
    destruct (nmin_cases (Fin (zq 1000000)) (nmins (map Fin (col Q4 P t)))) as [G|G]; rewrite G; eauto.
    destruct (nmins (map Fin (col Q4 P t))) eqn:EN; eauto.
    - cbn in G. discriminate.
    - exfalso. eapply nmins_ninf; eauto.
    - exfalso. pose proof (nmins_notnan (map Fin (col Q4 P t)) (Forall_Fin _)) as X0. rewrite EN in X0. apply X0; auto. }
  destruct Fot as (oq & Lo & ->). destruct Fo1 as (Q1 & SQ1 & ->).
  destruct (intrinsic_out_mwm_ok P T Q1 QP R (kc_intrinsic st)) as (iq & E6 & L6 & _); auto using finv_length.
  rewrite E6; cbn [bind].
  destruct (team_to_knapsack_ok D T nzs reward oq X) with (t2k := kc_t2k st) as (tk & E7 & S7 & H7 & H8);
    auto using finm_shape.
  { unfold nzs. rewrite map_length. destruct HW; auto. }
  { unfold nzs. apply Forall_map, Forall_forall. intros ws _. split; [apply participants_incr|].
    apply Forall_forall. intros t Ht. unfold participants in Ht. apply filter_In in Ht. destruct Ht as [Ht _].
    apply in_seq in Ht. lia. }
  rewrite E7; cbn [bind]. eexists; split; [reflexivity|].
  unfold kc_fin; cbn. repeat match goal with |- _ /\ _ => split end; auto.
  - apply finm_of; auto. intros d t Hd Ht. destruct (in_dec Nat.eq_dec t (nth d nzs [])) as [Hin|Hin].
    + rewrite H7; eauto.
    + rewrite H8; auto. eapply finm_get; eauto.
  - exists X; auto.
  - exists tq; auto.
  - exists oq; auto.
  - exists Q4; auto.
  - exists Q1; auto.
  - exists Q2; auto.
  - exists QP; auto.
  - exists iq; auto.
Qed.

Lemma kc_iterate_fin iters : finm D T t0 ->
  exists st ext, kc_iterate flag (Fin alpha) T D P iters inp sizes = Some (st, ext) /\ kc_fin st /\ finv T ext.
Proof.
  intros H0. unfold kc_iterate.
  match goal with |- context [for_up 0 iters ?st0 ?bd] =>
    destruct (for_up_ind 0 iters st0 bd (fun i st => kc_fin st)) as (st & E & H) end.
  - lia.
  - unfold kc_fin, kc_init; cbn. repeat match goal with |- _ /\ _ => split end; auto using finm_zeros, finv_zeros.
  - intros i st Hi H. apply kc_step_fin; auto.
  - rewrite E; cbn [bind]. pose proof H as (F1 & F2 & F3 & (X & SX & EX) & F5 & (o & Lo & Eo) & _). rewrite EX, Eo.
    destruct (extrinsic_output_team_ok D T X o (repeat n0 T)) as (q & E2 & L2 & _); auto using repeat_length.
    rewrite E2; cbn [bind]. exists st, (map Fin q). split; auto. split; auto. exists q; auto.
Qed.
End KcMwm.
