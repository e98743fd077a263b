(** * What a whole KC-MWM run computes. *)
From Verif Require Import Num NumFacts Arr ArrFacts Spec SpecRun MinSum MinSumFacts.
From Verif Require Import M_Kc_Trellis P_Tsp_Constraints P_Kc_Trellis M_Ksat P_Ksat M_Equality P_Equality.
From Verif Require Import M_Knapsack P_Knapsack P_Team_Knapsack M_Filter P_Filter M_InOut P_InOut M_Runs P_Runs P_Schedule.
Local Open Scope nat_scope.

Lemma unm_upd m d r : unm (upd m d (map Fin r)) = upd (unm m) d r.
Proof.
  unfold unm. revert d; induction m as [|x m IH]; intros [|d]; cbn; auto.
  - rewrite unv_fin. reflexivity.
  - f_equal. apply IH.
Qed.

Section KcMwm.
Variables (T D P : nat) (flag : bool) (alpha : Qc).
Variables (W : list (list nat)) (R : list (list Qc)) (reward : list Qc) (caps : list nat).
Variable t0 : list (list num).
Hypothesis HW : shape D T W.
Hypothesis HR : shape P T R.
Hypothesis Hrew : length reward = T.
Hypothesis Hcaps : length caps = D.
Hypothesis Hpart : forall d ws, get W d = Some ws -> participants T ws <> [].
Hypothesis Hfit : forall d ws cap, get W d = Some ws -> get caps d = Some cap -> Forall (fun w => w <= cap) ws.
Let nzs := map (participants T) W.
Hypothesis Htwo : forall d1 d2 d3 l, d1 < D -> d2 < D -> d3 < D ->
  In l (nth d1 nzs []) -> In l (nth d2 nzs []) -> In l (nth d3 nzs []) -> d1 = d2 \/ d1 = d3 \/ d2 = d3.
Let sizes := map (@length nat) nzs.
Let inp := {| kc_reward_team := map Fin reward; kc_team2knapsack := t0; kc_weights := W;
              kc_reward_project := inj R; kc_max_state := caps; kc_nonzero := nzs |}.

(** row [d] of [Dm] holds the knapsack messages of department [d] for the incoming [K] *)
Definition dept_row (K Dm : list (list Qc)) (d : nat) : Prop :=
  forall ws cap, nth_error W d = Some ws -> nth_error caps d = Some cap ->
    (forall p x, nth_error (participants T ws) p = Some x ->
       minsum_message (within (map (fun x => nth x ws 0) (participants T ws)) cap)
         (map (fun x => qat K d x) (participants T ws)) p (Fin (qat Dm d x))) /\
    (forall x, x < T -> nth x ws 0 = 0 -> qat Dm d x = 0%Qc).

Lemma kc_department_sem K iter dummy old extr d :
  shape D T K -> finm D T dummy -> finm D T old -> finm D T extr -> d < D ->
  exists r q, length r = T /\ length q = T /\
    kc_department flag (Fin alpha) T inp sizes (inj K) iter (dummy, old, extr) d
      = Some (upd dummy d (map Fin r), (if on flag alpha then upd old d (map Fin q) else old),
              upd extr d (map Fin q)) /\
    dept_row K (upd (unm dummy) d r) d /\
    (forall x, x < T -> nth x q 0%Qc = blend1 flag alpha iter (nth x r 0%Qc) (qat (unm old) d x)).
Proof.
  intros F1 F2 F3 F4 Hd. unfold kc_department. cbn [kc_max_state kc_nonzero kc_weights inp].
  destruct (get_lt caps d) as [cap Gc]; [lia|]. rewrite Gc; cbn [bind].
  destruct (get_lt W d) as [ws Gw]; [destruct HW; lia|].
  assert (Gn : get nzs d = Some (participants T ws)) by (unfold nzs; rewrite get_map, Gw; reflexivity).
  rewrite Gn; cbn [bind].
  unfold sizes. rewrite get_map, Gn; cbn [bind option_map]. rewrite Gw; cbn [bind].
  rewrite (get_inj D T) by auto. cbn [bind].
  destruct (get_lt dummy d) as [row Gr]; [apply finm_shape in F2; destruct F2; lia|]. rewrite Gr; cbn [bind].
  assert (Lw : length ws = T) by (eapply shape_row; eauto).
  assert (LK : length (nth d K []) = T) by (apply (shape_nth D T); auto).
  destruct (department_ok T cap ws (nth d K []) Lw LK) with (out := row) as (o & E & Lo & A & B).
  { intros t Ht. pose proof (Hfit d ws cap Gw Gc) as X. rewrite Forall_forall in X. apply X, nth_In. lia. }
  { exact (Hpart d ws Gw). }
  { apply (finv_length T). exact (finm_row _ _ _ _ _ F2 Gr). }
  change (part T ws) with (participants T ws) in *. rewrite E; cbn [bind].
  rewrite set_lt by (apply finm_shape in F2; destruct F2; lia). cbn [bind].
  assert (Fo : finv T o).
  { apply finv_of; auto. intros t Ht. destruct (in_dec Nat.eq_dec t (participants T ws)) as [Hin|Hin].
    - apply In_nth_error in Hin. destruct Hin as [p Hp]. destruct (A p t Hp) as (q' & G & _). eauto.
    - exists 0%Qc. apply B; auto. }
  destruct Fo as (r & Lr & ->).
  destruct F2 as (Dq & SD & ->). destruct F3 as (Om & SO & ->).
  rewrite <- inj_upd.
  destruct (filter_at_ok flag alpha iter D D T d (upd Dq d r) Om extr) as (q & Lq & E2 & Hq);
    auto using finm_shape, shape_updr.
  rewrite E2; cbn [bind]. exists r, q. split; auto. split; auto. split; [|split].
  - destruct (on flag alpha); rewrite ?inj_upd; reflexivity.
  - rewrite unm_inj. intros ws' cap' Gw' Gc'. unfold get in Gw, Gc. rewrite Gw in Gw'; injection Gw' as <-.
    rewrite Gc in Gc'; injection Gc' as <-. split.
    + intros p x Gp. destruct (A p x Gp) as (v & Gv & Mv). rewrite (qat_upd D T) by auto. rewrite Nat.eqb_refl.
      rewrite get_map in Gv. destruct (get r x) as [rx|] eqn:Gx; [|discriminate]. cbn in Gv. injection Gv as ->.
      unfold get in Gx. rewrite (nth_error_nth _ _ _ Gx). exact Mv.
    + intros x Hx Zx. rewrite (qat_upd D T) by auto. rewrite Nat.eqb_refl.
      assert (Gv : get (map Fin r) x = Some n0).
      { apply B; auto. intros I. unfold participants in I. apply filter_In in I as [_ I].
        rewrite Zx in I. discriminate. }
      rewrite (get_mapFin _ _ T) in Gv by auto. injection Gv as ->. reflexivity.
  - intros x Hx. rewrite (Hq x Hx). rewrite (qat_upd D T) by auto. rewrite Nat.eqb_refl, unm_inj. reflexivity.
Qed.

Lemma dept_row_ext K A B d : (forall x, x < T -> qat A d x = qat B d x) -> dept_row K A d -> dept_row K B d.
Proof.
  intros H HA ws cap Gw Gc. destruct (HA ws cap Gw Gc) as [A1 A2]. split.
  - intros p x Gp. rewrite <- H; auto.
    apply nth_error_In in Gp. unfold participants in Gp. apply filter_In in Gp as [Gp _].
    apply in_seq in Gp. lia.
  - intros x Hx Z. rewrite <- H; auto.
Qed.

(** What one iteration does: incoming [K] (team to department), [EO] (project to coupling); raw
    and filtered department messages [Dm], [X]; then team to coupling [TO], coupling to project
    [CE] (without reward) and [EP] (with reward), project messages [PE], new [EO'], coupling to
    team [OT], new [K'] *)
Definition kc_equations (K EO Dm X : list (list Qc)) (TO : list Qc) (CE EP PE EO' : list (list Qc))
  (OT : list Qc) (K' : list (list Qc)) : Prop :=
  (forall d, d < D -> dept_row K Dm d) /\
  (forall x, x < T -> nth x TO 0%Qc = (nth x reward 0 + qsum (map (fun d => qat X d x) (seq 0 D)))%Qc) /\
  (forall p x, p < P -> x < T ->
     minsum_message coupled (nth x TO 0%Qc :: col EO P x) (S p) (Fin (qat CE p x))) /\
  (forall p x, p < P -> x < T -> qat EP p x = (qat CE p x + qat R p x)%Qc) /\
  (forall p x, p < P -> x < T -> minsum_message at_most_one (nth p EP []) x (Fin (qat PE p x))) /\
  (forall p x, p < P -> x < T -> qat EO' p x = (qat PE p x + qat R p x)%Qc) /\
  (forall x, x < T -> exists v, minsum_message coupled (nth x TO 0%Qc :: col EO' P x) 0 v /\
     Fin (nth x OT 0%Qc) = nmin (zn 1000000) v) /\
  (forall d x, d < D -> x < T ->
     (nth x (nth d W []) 0 <> 0 -> qat K' d x = (nth x reward 0 + nth x OT 0 +
        qsum (map (fun d' => qat X d' x)
               (filter (fun d' => takes_part W d' x) (others d (seq 0 D)))))%Qc) /\
     (nth x (nth d W []) 0 = 0 -> qat K' d x = qat K d x)).

Lemma in_nz d x : d < D -> x < T -> In x (nth d nzs []) <-> nth x (nth d W []) 0 <> 0.
Proof.
  intros Hd Hx. unfold nzs. rewrite (nth_indep _ [] (participants T [])) by (rewrite map_length; destruct HW; lia).
  rewrite map_nth. unfold participants. rewrite filter_In, in_seq, negb_true_iff, Nat.eqb_neq. intuition lia.
Qed.
Lemma in_nz_b d x : d < D -> x < T ->
  existsb (Nat.eqb x) (nth d nzs []) = negb (nth x (nth d W []) 0 =? 0).
Proof.
  intros Hd Hx. destruct (existsb (Nat.eqb x) (nth d nzs [])) eqn:E; symmetry.
  - apply existsb_exists in E as (y & I & Ey). apply Nat.eqb_eq in Ey; subst y.
    apply negb_true_iff, Nat.eqb_neq. apply in_nz; auto.
  - apply negb_false_iff, Nat.eqb_eq. destruct (Nat.eq_dec (nth x (nth d W []) 0) 0) as [|N]; auto. exfalso.
    apply in_nz in N; auto. assert (existsb (Nat.eqb x) (nth d nzs []) = true); [|congruence].
    apply existsb_exists. exists x. split; auto. apply Nat.eqb_refl.
Qed.

Lemma kc_step_sem st iter : kc_fin T D P st ->
  exists st', kc_step flag (Fin alpha) T D P inp sizes st iter = Some st' /\ kc_fin T D P st' /\
    kc_equations (unm (kc_t2k st)) (unm (kc_eq2oric st)) (unm (kc_dummy st')) (unm (kc_extr st'))
      (unv (kc_team2oric st')) (unm (kc_oric2eq st')) (unm (kc_eq2project st')) (unm (kc_project2eq st'))
      (unm (kc_eq2oric st')) (unv (kc_oric2team st')) (unm (kc_t2k st')) /\
    (forall d x, d < D -> x < T -> qat (unm (kc_extr st')) d x =
       blend1 flag alpha iter (qat (unm (kc_dummy st')) d x) (qat (unm (kc_extr_old st)) d x)) /\
    (forall d x, d < D -> x < T -> on flag alpha = true ->
       qat (unm (kc_extr_old st')) d x = qat (unm (kc_extr st')) d x) /\
    (forall p x, p < P -> x < T -> nth (p * T + x) (unv (kc_intrinsic st')) 0%Qc =
       (qat (unm (kc_oric2eq st')) p x + qat (unm (kc_project2eq st')) p x + qat R p x)%Qc).
Proof.
  intros F. destruct (kc_step_fin T D P flag alpha W R reward caps t0) with (st := st) (iter := iter)
    as (st' & E & F'); auto.
  exists st'. split; [exact E|]. split; [exact F'|].
  destruct F as (F1 & F2 & F3 & F4 & F5 & F6 & F7 & F8 & F9 & F10 & F11).
  unfold kc_step in E.
  destruct F1 as (K & SK & EK). rewrite EK in E.
  match type of E with context [for_up 0 D ?st0 ?bd] =>
    destruct (for_up_ind 0 D st0 bd (fun i s => let '(a, b, c) := s in
      finm D T a /\ finm D T b /\ finm D T c /\
      (forall d, d < i -> dept_row K (unm a) d) /\
      (forall d x, d < i -> x < T -> qat (unm c) d x =
         blend1 flag alpha iter (qat (unm a) d x) (qat (unm (kc_extr_old st)) d x)) /\
      (forall d x, d < i -> x < T -> on flag alpha = true -> qat (unm b) d x = qat (unm c) d x) /\
      (forall d x, i <= d -> qat (unm b) d x = qat (unm (kc_extr_old st)) d x)))
      as ([[dm ol] ex] & E0 & A & B & C & G1 & G2 & G3 & _) end.
  { lia. }
  { repeat match goal with |- _ /\ _ => split end; auto; intros; lia. }
  { intros i [[a b] c] Hi (A1 & A2 & A3 & H1 & H2 & H3 & H4).
    destruct (kc_department_sem K iter a b c i) as (r & q & Lr & Lq & Ed & Dr & Hq); auto; [lia|].
    eexists; split; [exact Ed|].
    pose proof (finm_unm _ _ _ A1) as [_ Sa]. pose proof (finm_unm _ _ _ A2) as [_ Sb].
    pose proof (finm_unm _ _ _ A3) as [_ Sc].
    assert (Fq : finv T (map Fin q)) by (exists q; auto). assert (Fr : finv T (map Fin r)) by (exists r; auto).
    split; [apply finm_upd; auto|]. split; [destruct (on flag alpha); auto; apply finm_upd; auto|].
    split; [apply finm_upd; auto|]. rewrite !unm_upd. split; [|split; [|split]].
    - intros d Hd. destruct (Nat.eq_dec d i) as [-> |N]; auto.
      apply dept_row_ext with (unm a); [|apply H1; lia].
      intros x Hx. rewrite (qat_upd D T) by (auto; lia). destruct (Nat.eqb_spec i d); auto; lia.
    - intros d x Hd Hx. rewrite !(qat_upd D T) by (auto; lia). destruct (Nat.eqb_spec i d) as [-> |N].
      + rewrite (Hq x Hx). rewrite (H4 d x) by lia. reflexivity.
      + apply H2; auto; lia.
    - intros d x Hd Hx On. rewrite On, unm_upd, !(qat_upd D T) by (auto; lia).
      destruct (Nat.eqb_spec i d) as [-> |N]; auto. apply H3; auto; lia.
    - intros d x Hd. destruct (on flag alpha); [rewrite unm_upd, (qat_upd D T) by (auto; lia)|].
      + destruct (Nat.eqb_spec i d) as [-> |N]; [lia|]. apply H4; lia.
      + apply H4; lia. }
  rewrite E0 in E; cbn [bind] in E. cbn [kc_reward_team kc_reward_project kc_nonzero inp] in E.
  destruct C as (X & SX & ->).
  destruct (team_to_oric_ok D T X reward (kc_team2oric st) SX Hrew (finv_length _ _ F5)) as (tq & E1 & L1 & K1).
  rewrite E1 in E; cbn [bind] in E. destruct F7 as (EO & SE & EEO). rewrite EEO in E.
  destruct (oric_to_project_ok P T EO tq R (kc_oric2eq st) (kc_eq2project st)) as (o1 & o2 & E2 & S1 & S2 & H2);
    auto using finm_shape.
  rewrite E2 in E; cbn [bind] in E.
  assert (Fo1 : finm P T o1).
  { apply finm_of; auto. intros p t Hp Ht. destruct (H2 p t Hp Ht) as [G _]. rewrite G. unfold oric_val.
    match goal with |- context [nmins (map Fin ?l)] => destruct (nmin0_fin l) as (q & ->) end. cbn. eauto. }
  assert (Fo2 : finm P T o2).
  { apply finm_of; auto. intros p t Hp Ht. destruct (H2 p t Hp Ht) as [_ G]. rewrite G. unfold oric_val.
    match goal with |- context [nmins (map Fin ?l)] => destruct (nmin0_fin l) as (q & ->) end. cbn. eauto. }
  destruct Fo2 as (Q2 & SQ2 & ->). destruct Fo1 as (Q1 & SQ1 & ->).
  destruct (project_update_ok P T Q2 (kc_project2eq st)) as (p2 & E3 & S3 & H3); auto using finm_shape.
  rewrite E3 in E; cbn [bind] in E.
  assert (Fp : finm P T p2).
  { apply finm_of; auto. intros p t Hp Ht. rewrite (H3 p t Hp Ht).
    match goal with |- context [nmins (map Fin ?l)] => destruct (nmin0_fin l) as (q & ->) end. cbn. eauto. }
  destruct Fp as (QP & SP & ->).
  destruct (project_to_oric_ok P T QP R (inj EO)) as (Q4 & E4 & S4 & H4); auto using shape_inj.
  rewrite E4 in E; cbn [bind] in E.
  destruct (oric_to_team_ok P T Q4 (kc_oric2team st) S4 (finv_length _ _ F6)) as (ot & E5 & L5 & H5).
  rewrite E5 in E; cbn [bind] in E.
  assert (Fot : finv T ot).
  { apply finv_of; auto. intros t Ht. rewrite (H5 t Ht). unfold oric_cap, zn.
    destruct (nmin_cases (Fin (zq 1000000)) (nmins (map Fin (col Q4 P t)))) as [G|G]; rewrite G; eauto.
    destruct (nmins (map Fin (col Q4 P t))) eqn:EN; eauto.
    - cbn in G. discriminate.
    - exfalso. eapply nmins_ninf; eauto.
    - exfalso. pose proof (nmins_notnan (map Fin (col Q4 P t)) (Forall_Fin _)) as X0. rewrite EN in X0. apply X0; auto. }
  destruct Fot as (oq & Lo & ->).
  destruct (intrinsic_out_mwm_ok P T Q1 QP R (kc_intrinsic st)) as (iq & E6 & L6 & H6); auto using finv_length.
  rewrite E6 in E; cbn [bind] in E.
  destruct (team_to_knapsack_ok D T nzs reward oq X) with (t2k := inj K) as (tk & E7 & S7 & H7 & H8);
    auto using shape_inj.
  { unfold nzs. rewrite map_length. destruct HW; auto. }
  { unfold nzs. apply Forall_map, Forall_forall. intros ws _. split; [apply participants_incr|].
    apply Forall_forall. intros t Ht. unfold participants in Ht. apply filter_In in Ht. destruct Ht as [Ht _].
    apply in_seq in Ht. lia. }
  unfold nzs in E7. rewrite E7 in E; cbn [bind] in E. injection E as <-.
  cbn [kc_t2k kc_dummy kc_extr_old kc_extr kc_team2oric kc_oric2team kc_eq2oric kc_oric2eq kc_eq2project kc_project2eq kc_intrinsic].
  rewrite EK, EEO, !unm_inj, !unv_fin. rewrite unm_inj in G2, G3.
  split; [|split; [exact G2|split; [exact G3|exact H6]]].
  assert (CE : forall p x, p < P -> x < T -> Fin (qat Q1 p x) = oric_val EO P tq p x).
  { intros p x Hp Hx. destruct (H2 p x Hp Hx) as [G _]. rewrite (get2_inj P T) in G by auto. injection G as ->; auto. }
  unfold kc_equations. repeat match goal with |- _ /\ _ => split end.
  - exact G1.
  - exact K1.
  - intros p x Hp Hx. rewrite CE by auto. unfold oric_val. apply coupled_message. rewrite col_length; auto.
  - intros p x Hp Hx. destruct (H2 p x Hp Hx) as [_ G]. rewrite (get2_inj P T) in G by auto.
    rewrite <- CE in G by auto. cbn [nadd] in G. injection G as ->; auto.
  - intros p x Hp Hx. pose proof (H3 p x Hp Hx) as G. rewrite (get2_inj P T) in G by auto. injection G as ->.
    apply at_most_one_message. rewrite (shape_nth P T) by auto. auto.
  - exact H4.
  - intros x Hx. exists (nmins (map Fin (col Q4 P x))). split; [apply coupled_team_message|].
    pose proof (H5 x Hx) as G. rewrite (get_mapFin _ _ T) in G by auto. injection G as ->. reflexivity.
  - intros d x Hd Hx. split; intros Hz.
    + apply (qat_unm D T tk d x); auto. rewrite (H7 d x); auto; [|apply in_nz; auto].
      unfold tk_val. do 5 f_equal. apply filter_ext_in. intros d' I. unfold others in I. apply filter_In in I as [I _].
      apply in_seq in I. apply in_nz_b; auto; lia.
    + apply (qat_unm D T tk d x); auto. rewrite (H8 d x); auto; [|rewrite in_nz by auto; lia].
      rewrite (get2_inj D T) by auto. reflexivity.
Qed.

Lemma qat_zeros n k c x : qat (unm (zeros n k)) c x = 0%Qc.
Proof.
  unfold qat, unm, unv, zeros. rewrite map_repeat, map_repeat. cbn [unfin n0].
  destruct (nth_in_or_default c (repeat (repeat 0%Qc k) n) []) as [I| ->].
  - apply repeat_spec in I. rewrite I. apply nth_repeat.
  - destruct x; reflexivity.
Qed.
Lemma qsum_zero {A} (f : A -> Qc) l : (forall a, f a = 0%Qc) -> qsum (map f l) = 0%Qc.
Proof. intros H. induction l as [|a l IH]; cbn [map]; [reflexivity|]. rewrite qsum_cons, IH, H. ring. Qed.

Lemma kc_run_sem iters : finm D T t0 ->
  exists (st : kc_state) (ext intr : list Qc) (K EO Dm X : nat -> list (list Qc)) (TO : nat -> list Qc)
    (CE EP PE : nat -> list (list Qc)) (OT : nat -> list Qc),
    kc_iterate flag (Fin alpha) T D P iters inp sizes = Some (st, map Fin ext) /\
    kc_intrinsic st = map Fin intr /\ length ext = T /\ length intr = P * T /\
    K 0 = unm t0 /\ (forall p x, qat (EO 0) p x = 0%Qc) /\
    (forall t, kc_equations (K t) (EO t) (Dm t) (X t) (TO t) (CE t) (EP t) (PE t) (EO (t + 1)) (OT t) (K (t + 1)) /\
       forall d x, d < D -> x < T -> qat (X t) d x = filtered flag alpha (fun i => qat (Dm i) d x) t) /\
    (forall t, shape D T (Dm t) /\ shape P T (EP t)) /\
    (forall x, x < T -> nth x ext 0%Qc = if iters =? 0 then 0%Qc else
       (nth x (OT (iters - 1)%nat) 0 + qsum (map (fun d => qat (X (iters - 1)%nat) d x) (seq 0 D)))%Qc) /\
    (forall p x, p < P -> x < T -> nth (p * T + x) intr 0%Qc = if iters =? 0 then 0%Qc else
       (qat (CE (iters - 1)%nat) p x + qat (PE (iters - 1)%nat) p x + qat R p x)%Qc).
Proof.
  intros H0. unfold kc_iterate. cbn [kc_team2knapsack inp].
  destruct (run_seq (kc_init T D P t0) (kc_step flag (Fin alpha) T D P inp sizes) (kc_fin T D P))
    as (s & S0 & HS).
  { unfold kc_fin, kc_init; cbn. repeat match goal with |- _ /\ _ => split end; auto using finm_zeros, finv_zeros. }
  { intros st i F. destruct (kc_step_sem st i F) as (st' & E & F' & _). eauto. }
  destruct (HS iters) as (F & _ & E). fold nzs inp sizes. rewrite E; cbn [bind].
  pose proof F as (F1 & F2 & F3 & F4 & F5 & F6 & F7 & F8 & F9 & F10 & F11).
  destruct (finm_unm _ _ _ F4) as [EX SX]. destruct (finv_unv _ _ F6) as [EO LO].
  destruct (finv_unv _ _ F11) as [EI LI]. rewrite EX, EO.
  destruct (extrinsic_output_team_ok D T (unm (kc_extr (s iters))) (unv (kc_oric2team (s iters))) (repeat n0 T))
    as (q & E2 & L2 & H2); auto using repeat_length.
  rewrite E2; cbn [bind].
  exists (s iters), q, (unv (kc_intrinsic (s iters))), (fun t => unm (kc_t2k (s t))), (fun t => unm (kc_eq2oric (s t))),
    (fun t => unm (kc_dummy (s (t + 1)))), (fun t => unm (kc_extr (s (t + 1)))),
    (fun t => unv (kc_team2oric (s (t + 1)))), (fun t => unm (kc_oric2eq (s (t + 1)))),
    (fun t => unm (kc_eq2project (s (t + 1)))), (fun t => unm (kc_project2eq (s (t + 1)))),
    (fun t => unv (kc_oric2team (s (t + 1)))).
  cbn beta.
  split; [reflexivity|]. split; [exact EI|]. split; [exact L2|]. split; [exact LI|].
  split; [rewrite S0; reflexivity|]. split; [intros; rewrite S0; apply qat_zeros|].
  assert (ST : forall t, kc_equations (unm (kc_t2k (s t))) (unm (kc_eq2oric (s t))) (unm (kc_dummy (s (t + 1)))) (unm (kc_extr (s (t + 1))))
      (unv (kc_team2oric (s (t + 1)))) (unm (kc_oric2eq (s (t + 1)))) (unm (kc_eq2project (s (t + 1)))) (unm (kc_project2eq (s (t + 1))))
      (unm (kc_eq2oric (s (t + 1)))) (unv (kc_oric2team (s (t + 1)))) (unm (kc_t2k (s (t + 1)))) /\
    (forall d x, d < D -> x < T -> qat (unm (kc_extr (s (t + 1)))) d x =
       blend1 flag alpha t (qat (unm (kc_dummy (s (t + 1)))) d x) (qat (unm (kc_extr_old (s t))) d x)) /\
    (forall d x, d < D -> x < T -> on flag alpha = true ->
       qat (unm (kc_extr_old (s (t + 1)))) d x = qat (unm (kc_extr (s (t + 1)))) d x) /\
    (forall p x, p < P -> x < T -> nth (p * T + x) (unv (kc_intrinsic (s (t + 1)))) 0%Qc =
       (qat (unm (kc_oric2eq (s (t + 1)%nat))) p x + qat (unm (kc_project2eq (s (t + 1)%nat))) p x + qat R p x)%Qc)).
  { intros t. destruct (HS t) as (Ft & Et & _). destruct (kc_step_sem (s t) t Ft) as (st' & E' & _ & RR).
    rewrite Et in E'. injection E' as <-. exact RR. }
  split; [|split; [|split]].
  - intros t. split; [apply ST|]. intros d x Hd Hx.
    apply (filtered_run flag alpha (fun i => qat (unm (kc_dummy (s (i + 1)))) d x)
      (fun i => qat (unm (kc_extr_old (s i))) d x) (fun i => qat (unm (kc_extr (s (i + 1)))) d x)).
    + intros i. apply ST; auto.
    + intros i On. apply ST; auto.
  - intros t. destruct (HS (t + 1)) as ((A1 & A2 & A3 & A4 & A5 & A6 & A7 & A8 & A9 & _) & _).
    split; [apply (finm_unm _ _ _ A2)|apply (finm_unm _ _ _ A9)].
  - intros x Hx. rewrite H2 by auto. destruct (Nat.eqb_spec iters 0) as [->|N].
    + rewrite S0. unfold kc_init. cbn [kc_extr kc_oric2team]. unfold col.
      rewrite qsum_zero by (intros; apply qat_zeros). unfold unv. rewrite map_repeat. cbn. rewrite nth_repeat. ring.
    + replace (iters - 1 + 1) with iters by lia. reflexivity.
  - intros p x Hp Hx. destruct (Nat.eqb_spec iters 0) as [->|N].
    + rewrite S0. unfold kc_init. cbn [kc_intrinsic]. unfold unv. rewrite map_repeat. apply nth_repeat.
    + replace iters with (iters - 1 + 1) at 1 by lia. apply ST; auto.
Qed.
End KcMwm.
