(** * KC-MWM: with bounded rewards no coupling constraint sends a team more than the constant 1000000. *)
From Verif Require Import NumFacts Arr ArrFacts Spec SpecRun SpecRange MinSum MinSumFacts.
From Verif Require Import M_Kc_Trellis P_Tsp_Constraints P_Kc_Trellis M_Equality P_Equality M_Filter P_Filter M_InOut P_InOut.
From Verif Require Import M_Knapsack P_Knapsack P_Team_Knapsack M_Runs P_Runs P_Schedule P_Kc_Run P_Ksat P_Tsp_Rounds P_Kc_Settled P_Kc_Messages.
From Verif Require Import M_PyRef M_PyRef_Kc M_PyRef_Run P_PyRef P_PyRef_Kc P_PyRef_Run.
From Verif Require Import Num.
Local Open Scope nat_scope.

Section Bound.
Variables (T D P : nat) (flag : bool) (alpha : Qc).
Variables (W : list (list nat)) (R : list (list Qc)) (reward : list Qc) (caps : list nat).
Variable t0 : list (list num).
Hypothesis HW : shape D T W.
Hypothesis HR : shape P T R.
Hypothesis Hrew : length reward = T.
Hypothesis Hcaps : length caps = D.
Hypothesis Hpart : forall d ws, get W d = Some ws -> participants T ws <> [].
Hypothesis Hfit : forall d ws cap, get W d = Some ws -> get caps d = Some cap -> Forall (fun w => w <= cap) ws.
Let nzs := map (participants T) W.
Hypothesis Htwo : forall d1 d2 d3 l, d1 < D -> d2 < D -> d3 < D ->
  In l (nth d1 nzs []) -> In l (nth d2 nzs []) -> In l (nth d3 nzs []) -> d1 = d2 \/ d1 = d3 \/ d2 = d3.
Hypothesis Halpha : flag = true -> (0 <= alpha /\ alpha <= 1)%Qc.
Variable c : Qc.
Hypothesis Hbound : moderate T P R reward c.
Let sizes := map (@length nat) nzs.
Let inp := {| kc_reward_team := map Fin reward; kc_team2knapsack := t0; kc_weights := W;
              kc_reward_project := inj R; kc_max_state := caps; kc_nonzero := nzs |}.

Lemma dept_nonneg K Dm d : dept_row T W caps K Dm d -> d < D -> forall x, x < T -> (0 <= qat Dm d x)%Qc.
Proof.
  intros H Hd x Hx. destruct (get_lt W d) as [ws Gw]; [destruct HW; lia|]. destruct (get_lt caps d) as [cap Gc]; [lia|].
  destruct (H ws cap Gw Gc) as (A & B). destruct (Nat.eq_dec (nth x ws 0) 0) as [Z|Z].
  { rewrite B by auto. apply Qcle_refl. }
  assert (I : In x (participants T ws)).
  { unfold participants. apply filter_In. split; [apply in_seq; lia|]. now apply negb_true_iff, Nat.eqb_neq. }
  apply In_nth_error in I as (i & Hi). eapply department_nonneg; [|exact Hi|exact (A i x Hi)].
  unfold participants. apply NoDup_filter, seq_NoDup.
Qed.
Lemma on_alpha : on flag alpha = true -> (0 <= alpha /\ alpha <= 1)%Qc.
Proof. unfold on. destruct flag; [auto|discriminate]. Qed.
Lemma blend_nonneg i d o : (0 <= d)%Qc -> (on flag alpha = true -> (0 <= o)%Qc) -> (0 <= blend1 flag alpha i d o)%Qc.
Proof.
  intros Hd Ho. unfold blend1. destruct (on flag alpha) eqn:On; [|exact Hd]. destruct (on_alpha On) as (A0 & A1). specialize (Ho eq_refl).
  assert (X : (0 <= d * (1 - alpha))%Qc). { rewrite <- (Qcmult_0_l (1 - alpha)). apply Qcmult_le_compat_r; [exact Hd|qlra]. }
  assert (Y : (0 <= o * alpha)%Qc). { rewrite <- (Qcmult_0_l alpha). apply Qcmult_le_compat_r; [exact Ho|qlra]. }
  destruct (i =? 0); [exact X|qlra].
Qed.
Lemma qsum_nonneg (f : nat -> Qc) l : (forall d, In d l -> (0 <= f d)%Qc) -> (0 <= qsum (map f l))%Qc.
Proof.
  induction l as [|d l IH]; intros H; [apply Qcle_refl|]. cbn [map]. rewrite qsum_cons.
  pose proof (H d (or_introl eq_refl)). specialize (IH (fun e I => H e (or_intror I))). qlra.
Qed.

Lemma kc_step_bound i s : kc_fin T D P s ->
  (on flag alpha = true -> forall d x, d < D -> x < T -> (0 <= qat (unm (kc_extr_old s)) d x)%Qc) ->
  exists s', kc_step flag (Fin alpha) T D P inp sizes s i = Some s' /\
    (on flag alpha = true -> forall d x, d < D -> x < T -> (0 <= qat (unm (kc_extr_old s')) d x)%Qc) /\
    (forall t, t < T -> exists pr, pr < P /\ (qat (unm (kc_eq2oric s')) pr t <= c)%Qc) /\
    (forall t, t < T -> (nth t (unv (kc_oric2team s')) 0 <= c)%Qc).
Proof.
  intros F Hold.
  destruct (kc_step_sem T D P flag alpha W R reward caps t0) with (st := s) (iter := i)
    as (s' & E & F' & Q & HX & HO & _); auto.
  fold nzs inp sizes in E. exists s'. split; [exact E|].
  destruct Q as (Q1 & Q2 & Q3 & Q4 & Q5 & Q6 & Q7 & _).
  assert (N : forall d x, d < D -> x < T -> (0 <= qat (unm (kc_extr s')) d x)%Qc).
  { intros d x Hd Hx. rewrite HX by auto. apply blend_nonneg; [eapply dept_nonneg; eauto|intros On; apply Hold; auto]. }
  split. { intros On d x Hd Hx. rewrite HO by auto. apply N; auto. }
  assert (Low : forall t, t < T -> exists pr, pr < P /\ (qat (unm (kc_eq2oric s')) pr t <= c)%Qc).
  { intros t Ht. destruct (Hbound t Ht) as (p & Hp & B1 & B2). exists p. split; [exact Hp|]. rewrite Q6 by auto.
    pose proof F' as (_ & _ & _ & _ & _ & _ & _ & _ & F9 & _). apply finm_unm in F9 as (_ & F9).
    assert (L : length (nth p (unm (kc_eq2project s')) []) = T) by (apply (shape_nth P T); [exact F9|exact Hp]).
    specialize (Q5 p t Hp Ht). rewrite <- (map_nth_seq (nth p (unm (kc_eq2project s')) []) 0%Qc), L in Q5.
    apply (project_facts _ _ _ t) in Q5; [|apply seq_NoDup|apply nth_error_seq_lt; lia].
    destruct Q5 as (_ & _ & [->|(y & Iy & Ny & ->)]); [qlra|]. apply in_seq in Iy.
    specialize (B2 y ltac:(lia) Ny). change (nth y (nth p (unm (kc_eq2project s')) []) 0%Qc) with (qat (unm (kc_eq2project s')) p y).
    rewrite Q4 by (auto; lia). specialize (Q3 p y Hp ltac:(lia)). unfold col in Q3.
    apply (team_project_facts _ _ _ _ p) in Q3; [|apply seq_NoDup|apply nth_error_seq_lt; lia]. destruct Q3 as (Q3 & _).
    rewrite Q2 in Q3 by lia. assert (X : (0 <= qsum (map (fun d => qat (unm (kc_extr s')) d y) (seq 0 D)))%Qc).
    { apply qsum_nonneg. intros d I. apply in_seq in I. apply N; lia. }
    qlra. }
  split; [exact Low|].
  intros t Ht. destruct (Q7 t Ht) as (v & M & Eo). destruct (Low t Ht) as (p & Hp & Le).
    pose proof (minsum_message_unique _ _ _ _ _ M (coupled_team_message _ _)) as ->.
    destruct (nmin_nmins (zq 1000000) (col (unm (kc_eq2oric s')) P t)) as (m & E' & _ & M1 & _).
    unfold zn in Eo. rewrite E' in Eo. injection Eo as ->. eapply Qcle_trans; [apply M1|exact Le].
    unfold col. apply in_map_iff. exists p. split; [reflexivity|apply in_seq; lia].
Qed.

(** states of the C++ run *)
Lemma kc_run_below : (0 <= c)%Qc -> finm D T t0 -> forall i s,
  for_up 0 i (kc_init T D P t0) (kc_step flag (Fin alpha) T D P inp sizes) = Some s ->
  kc_fin T D P s /\ (forall t, t < T -> (nth t (unv (kc_oric2team s)) 0 <= c)%Qc) /\
  (on flag alpha = true -> forall d x, d < D -> x < T -> (0 <= qat (unm (kc_extr_old s)) d x)%Qc).
Proof.
  intros Hc F0. induction i as [|i IH]; intros s E.
  - injection E as <-. split; [|split].
    + unfold kc_init, kc_fin. cbn [kc_t2k kc_dummy kc_extr_old kc_extr kc_team2oric kc_oric2team kc_eq2oric kc_oric2eq kc_eq2project kc_project2eq kc_intrinsic].
      repeat match goal with |- _ /\ _ => split end; auto using finm_zeros, finv_zeros.
    + intros t _. cbn [kc_oric2team kc_init]. unfold unv. rewrite map_repeat. replace (nth t (repeat _ T) 0%Qc) with 0%Qc; [exact Hc|].
      symmetry. apply nth_repeat.
    + intros _ d x _ _. cbn [kc_extr_old kc_init]. rewrite qat_unm_zeros. apply Qcle_refl.
  - replace (S i) with (i + 1) in E by lia. rewrite for_up_S in E.
    destruct (for_up 0 i _ _) as [s1|] eqn:E1; [|discriminate]. cbn [bind] in E. destruct (IH s1 eq_refl) as (F & _ & Ho).
    destruct (kc_step_bound i s1 F Ho) as (s' & E' & X1 & _ & X3). rewrite E in E'. injection E' as <-.
    destruct (kc_step_fin T D P flag alpha W R reward caps t0) with (st := s1) (iter := i) as (s2 & E2 & F2); auto.
    fold nzs inp sizes in E2. rewrite E in E2. injection E2 as <-. auto.
Qed.

Hypothesis HP : 2 <= P.
Hypothesis HT : 2 <= T.
Hypothesis HD : D <> 0.
Hypothesis HPT : P <> T.
Hypothesis Hnz : flag = true -> alpha <> 0%Qc.
Hypothesis Hc : (c <= zq 1000000)%Qc.
Lemma kc_small K : shape D T K -> t0 = inj K -> off_silent T D W K ->
  forall i p, 0 < i -> for_up 0 i (kp_init T D P t0)
     (py_kc_step flag (Fin alpha) T D P caps W (map Fin reward) (inj R)) = Some p -> small p.
Proof.
  intros SK Et HZ i p Hi Ep.
  destruct (for_up_sim i (kp_init T D P t0) (kc_init T D P t0)
     (py_kc_step flag (Fin alpha) T D P caps W (map Fin reward) (inj R))
     (kc_step flag (Fin alpha) T D P inp sizes)
     (fun j p s => kc_rel T D P flag alpha W j p s /\
        (on flag alpha = true -> forall d x, d < D -> x < T -> (0 <= qat (unm (kc_extr_old s)) d x)%Qc) /\
        (0 < j -> forall t, t < T -> (nth t (unv (kc_oric2team s)) 0 <= c)%Qc))) as (p' & s & E1 & _ & Q & _ & B).
  - split; [|split; [|lia]].
    + unfold kc_rel, kp_init, kc_init, kc_fin.
      cbn [kp_t2k kp_dummy kp_old kp_eq2oric kp_oric2team kp_intrinsic kp_extr_team
      kc_t2k kc_dummy kc_extr_old kc_extr kc_team2oric kc_oric2team kc_eq2oric kc_oric2eq kc_eq2project kc_project2eq kc_intrinsic].
      rewrite concat_zeros.
      repeat match goal with |- _ /\ _ => split end; auto using finm_zeros, finv_zeros; try lia.
      * exists K; auto.
      * apply shape_repeat.
      * rewrite Et, unm_inj. auto.
      * apply shape_repeat.
    + intros _ d x _ _. cbn [kc_extr_old kc_init]. rewrite qat_unm_zeros. apply Qcle_refl.
  - intros j a b _ (Q & Ho & _). destruct (kc_step_bound j b) as (s' & E & X1 & X2 & X3); [apply Q|exact Ho|].
    destruct (kc_step_same T D P flag alpha W R reward caps t0) with (i := j) (p := a) (s := b) as (p' & s2 & Y1 & Y2 & Y3); auto.
    { right. intros s2 E2. fold nzs inp sizes in E2. rewrite E in E2. injection E2 as <-. intros t Ht. destruct (X2 t Ht) as (pr & Hp & Le). exists pr. split; [exact Hp|qlra]. }
    fold nzs inp sizes in Y2. rewrite E in Y2. injection Y2 as <-. exists p', s'. auto 6.
  - rewrite Ep in E1. injection E1 as <-. destruct Q as (F & _ & _ & _ & _ & _ & _ & _ & Q & _). unfold small. rewrite Q.
    destruct F as (_ & _ & _ & _ & _ & F6 & _). destruct (finv_unv _ _ F6) as (EO & LO). rewrite EO.
    apply Forall_map, Forall_forall. intros q Iq. apply (In_nth _ _ 0%Qc) in Iq as (t & Ht & <-). rewrite LO in Ht.
    specialize (B Hi t Ht). unfold zn. cbn [nleb nlt]. apply negb_true_iff. destruct (qltb_spec (zq 1000000) (nth t (unv (kc_oric2team s)) 0%Qc)); [qlra|reflexivity].
Qed.
End Bound.
