(** * Iterations of the pure Python KC-MWM solver raise nothing *)
From Verif Require Import Num NumFacts Arr ArrFacts Spec SpecRun MinSum MinSumFacts.
From Verif Require Import M_Kc_Trellis P_Tsp_Constraints P_Kc_Trellis M_Equality P_Equality M_Filter P_Filter M_InOut P_InOut.
From Verif Require Import M_Knapsack P_Knapsack P_Team_Knapsack M_Runs P_Runs P_Schedule P_Kc_Run.
From Verif Require Import M_PyRef M_PyRef_Kc M_PyRef_Ksat M_PyRef_Run P_PyRef P_PyRef_Kc P_PyRef_Ksat P_PyRef_Run.
Local Open Scope nat_scope.

Section KcRaise.
Variables (T D P : nat) (flag : bool) (alpha : Qc).
Variables (W : list (list nat)) (R : list (list Qc)) (reward : list Qc) (caps : list nat).
Hypothesis HW : shape D T W.
Hypothesis HR : shape P T R.
Hypothesis Hrew : length reward = T.
Hypothesis Hcaps : length caps = D.
Hypothesis Hpart : forall d ws, get W d = Some ws -> participants T ws <> [].
Hypothesis Hfit : forall d ws cap, get W d = Some ws -> get caps d = Some cap -> Forall (fun w => w <= cap) ws.
Hypothesis Htwo : forall d1 d2 d3 l, d1 < D -> d2 < D -> d3 < D ->
  In l (nth d1 (map (participants T) W) []) -> In l (nth d2 (map (participants T) W) []) ->
  In l (nth d3 (map (participants T) W) []) -> d1 = d2 \/ d1 = d3 \/ d2 = d3.
Hypothesis HP : 2 <= P.
Hypothesis HT : 2 <= T.
Hypothesis HD : D <> 0.
Hypothesis Halpha : flag = true -> alpha <> 0%Qc.

Lemma departments_some K dummy : shape D T K -> shape D T dummy ->
  exists Dm, py_kc_departments T D caps W (inj K) dummy = Some (inj Dm) /\ shape D T Dm.
Proof.
  intros SK Sd. unfold py_kc_departments.
  match goal with |- context [for_up 0 D ?st0 ?bd] =>
    destruct (for_up_ind 0 D st0 bd (fun i a => shape D T a /\
      forall d t, d < i -> t < T -> exists q, get2 a d t = Some (Fin q))) as (a & E & S & G) end.
  - lia.
  - split; auto. intros; lia.
  - intros i a Hi (S & G). destruct (get_lt caps i) as [cap Gc]; [lia|]. rewrite Gc; cbn [bind].
    rewrite (get_inj D T) by (auto; lia). cbn [bind].
    destruct (get_lt W i) as [ws Gw]; [destruct HW; lia|]. rewrite Gw; cbn [bind].
    assert (Lw : length ws = T) by (eapply shape_row; eauto).
    assert (LK : length (nth i K []) = T) by (apply (shape_nth D T); auto; lia).
    destruct (py_department_ok T cap ws (nth i K []) Lw LK) as (o & Eo & Lo & A & B).
    { intros t Ht. pose proof (Hfit i ws cap Gw Gc) as X. rewrite Forall_forall in X. apply X, nth_In. lia. }
    { exact (Hpart i ws Gw). }
    rewrite Eo; cbn [bind]. rewrite set_lt by (destruct S; lia). eexists; split; [reflexivity|].
    split; [apply shape_updr; auto|]. intros d t Hd Ht. unfold get2. rewrite get_upd by (destruct S; lia).
    destruct (Nat.eqb_spec i d) as [<-|N]; [|apply (G d t); [lia|exact Ht]]. cbn [bind].
    destruct (in_dec Nat.eq_dec t (part T ws)) as [I|I].
    + apply In_nth_error in I as [p Hp]. destruct (A p t Hp) as (q & -> & _). eauto.
    + rewrite B by auto. unfold n0. eauto.
  - rewrite E. destruct (finm_of D T a S) as (Dm & SD & ->); [intros; apply G; auto|]. exists Dm. auto.
Qed.

Lemma col_nonempty M t : col M P t <> [].
Proof. intros X. apply (f_equal (@length _)) in X. rewrite col_length in X. cbn in X. lia. Qed.

(** invariant of the iterations of test/python_kc_mwm/src/graphical_model.py: shapes and finiteness of what is kept *)
Definition kc_ok (i : nat) (p : kp_state) : Prop :=
  (exists K, kp_t2k p = inj K /\ shape D T K) /\ shape D T (kp_dummy p) /\
  (exists M, kp_eq2oric p = inj M /\ shape P T M) /\
  (on flag alpha = true -> 0 < i -> exists O, kp_old p = Some (inj O) /\ shape D T O) /\
  (0 < i -> exists e, kp_extr_team p = Some e /\ length e = T).

Lemma kc_step_some i p : kc_ok i p ->
  exists p', py_kc_step flag (Fin alpha) T D P caps W (map Fin reward) (inj R) p i = Some p' /\ kc_ok (i + 1) p'.
Proof.
  intros ((K & E1 & SK) & Sd & (M & E2 & SM) & Hold & _). unfold py_kc_step. rewrite E1, E2.
  destruct (departments_some K (kp_dummy p) SK Sd) as (Dm & B1 & SD). rewrite B1. cbn [bind].
  assert (FL : exists Q old', py_filtering flag (Fin alpha) i (inj Dm) (kp_old p) = Some (inj Q, old') /\ shape D T Q /\
    (on flag alpha = true -> old' = Some (inj Q))).
  { assert (X : exists O, shape D T O /\ (on flag alpha = true -> 0 < i -> kp_old p = Some (inj O))).
    { destruct (on flag alpha); [|exists Dm; split; [exact SD|discriminate]].
      destruct (Nat.eq_dec i 0) as [->|N]; [exists Dm; split; [exact SD|intros; lia]|].
      destruct (Hold eq_refl ltac:(lia)) as (O & A & B). exists O. auto. }
    destruct X as (O & SO & X).
    destruct (py_filtering_ok flag alpha i D T Dm (kp_old p) O SD SO Halpha X) as (Q & old' & A1 & A2 & _ & A4). eauto 6. }
  destruct FL as (Q & old' & B2 & SQ & HQ). rewrite B2. cbn [bind].
  destruct (team_to_oric_same D T Q reward (repeat n0 T)) as (v & B3 & B3' & _); auto using repeat_length.
  destruct (team_to_oric_ok D T Q reward (repeat n0 T)) as (tq & B3'' & Lt & _); auto using repeat_length.
  rewrite B3' in B3''. injection B3'' as ->. rewrite B3. cbn [bind].
  destruct (oric_same P T M R tq (np_zeros P T) (np_zeros P T)) as (A & B & B4 & B4' & _); auto using shape_repeat.
  { apply shape_repeat. } { apply shape_repeat. }
  destruct (oric_to_project_ok P T M tq R (np_zeros P T) (np_zeros P T)) as (A' & B' & B4'' & SA & SB & G); auto.
  { apply shape_repeat. } { apply shape_repeat. }
  rewrite B4' in B4''. injection B4'' as <- <-. rewrite B4. cbn [bind].
  destruct (finm_of P T A SA) as (Aq & SAq & ->).
  { intros x t Hx Ht. destruct (G x t Hx Ht) as [-> _]. destruct (oric_fin M P tq x t HP Hx) as (q & ->). eauto. }
  destruct (finm_of P T B SB) as (Bq & SBq & ->).
  { intros x t Hx Ht. destruct (G x t Hx Ht) as [_ ->]. destruct (oric_fin M P tq x t HP Hx) as (q & ->). cbn [nadd]. eauto. }
  destruct (py_project_ok (negb (P =? T)) P T Bq SBq HT) as (C & B5 & SC & GC). rewrite B5. cbn [bind].
  destruct (finm_of P T C SC) as (Cq & SCq & ->).
  { intros x t Hx Ht. rewrite GC by auto. unfold project_val, py_constraint_rule.
    destruct (nmins_Fin (remove_at t (nth x Bq []))) as (q & -> & _).
    { assert (Lr : length (nth x Bq []) = T) by (apply (shape_nth P T); auto).
      intros X. apply (f_equal (@length _)) in X. rewrite remove_at_length in X by lia. cbn in X. lia. }
    destruct (negb _).
    - rewrite np_minimum_nmin by (cbn; auto; discriminate). unfold n0. destruct (nmin_Fin q 0) as (z & -> & _). cbn; eauto.
    - cbn; eauto. }
  unfold py_project_to_oric. rewrite (np_add2_inj P T) by auto. cbn [bind].
  set (E := qadd2 Cq R). assert (SE : shape P T E) by (apply qadd2_shape; auto).
  rewrite (py_oric_to_team_ok P T E SE) by lia. cbn [bind].
  assert (Fo : exists oq, map (fun t => nmins (map Fin (col E P t))) (seq 0 T) = map Fin oq /\ length oq = T).
  { exists (map (fun t => unfin (nmins (map Fin (col E P t)))) (seq 0 T)). split; [|rewrite map_length, seq_length; reflexivity].
    rewrite map_map. apply map_ext. intros t. destruct (nmins_Fin (col E P t) (col_nonempty E t)) as (q & -> & _). reflexivity. }
  destruct Fo as (oq & -> & Lo).
  destruct (intrinsic_same P T Aq Cq R (repeat n0 (P * T))) as (Qi & B7 & _); auto using repeat_length. rewrite B7. cbn [bind].
  assert (Hne : Forall (fun w => part T w <> []) W).
  { apply Forall_forall. intros w Iw. apply In_nth_error in Iw as [d Hd]. apply (Hpart d w Hd). }
  destruct (py_team_ok D T W reward oq Q) as (t2k & B8 & S8 & A8 & Z8); auto; try (destruct HW; auto; fail).
  rewrite B8. cbn [bind].
  destruct (extrinsic_team_same D T Q oq (repeat n0 T)) as (et & B9 & _ & Le); auto using repeat_length.
  rewrite B9. cbn [bind]. eexists. split; [reflexivity|].
  unfold kc_ok. cbn [kp_t2k kp_dummy kp_old kp_eq2oric kp_oric2team kp_intrinsic kp_extr_team].
  split; [|split; [apply shape_inj; exact SD|]].
  - destruct (finm_of D T t2k S8) as (Kq & SKq & ->); [|exists Kq; auto].
    intros d l Hd Hl. destruct (in_dec Nat.eq_dec l (nth d (map (part T) W) [])) as [I|I].
    + rewrite A8 by auto. eauto.
    + rewrite Z8 by auto. unfold n0. eauto.
  - split; [exists E; auto|]. split; [intros On _; exists Q; auto|]. intros _. exists et. auto.
Qed.

Lemma kc_run_some iters K : shape D T K -> 0 < iters ->
  exists p e, for_up 0 iters (kp_init T D P (inj K)) (py_kc_step flag (Fin alpha) T D P caps W (map Fin reward) (inj R)) = Some p /\
    kp_extr_team p = Some e /\ length e = T.
Proof.
  intros SK Hi.
  destruct (for_up_ind 0 iters (kp_init T D P (inj K)) (py_kc_step flag (Fin alpha) T D P caps W (map Fin reward) (inj R)) kc_ok)
    as (p & E & _ & _ & _ & _ & H).
  - lia.
  - unfold kc_ok, kp_init. cbn [kp_t2k kp_dummy kp_old kp_eq2oric kp_oric2team kp_intrinsic kp_extr_team].
    split; [exists K; auto|]. split; [apply shape_repeat|]. split; [|split; intros; lia].
    exists (repeat (repeat 0%Qc T) P). split; [unfold np_zeros, inj; rewrite !P_Runs.map_repeat; reflexivity|apply shape_repeat].
  - intros i s _ X. apply kc_step_some, X.
  - destruct (H Hi) as (e & He & Le). exists p, e. auto.
Qed.
End KcRaise.
