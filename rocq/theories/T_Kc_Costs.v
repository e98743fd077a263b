(** * C96: no pair is matched that costs more than leaving it out. *)
From Verif Require Import NumFacts Arr ArrFacts Spec SpecRun SpecKc SpecCover SpecSelection SpecRange MinSum M_InOut M_PyRef M_Runs M_PyRef_Run
  M_Kc_Trellis M_Kc_Py M_Kc_Summary P_Ksat_Py P_Tsp_Constraints P_Kc_Trellis P_Equality P_InOut P_Runs P_Schedule P_Kc_Run P_Kc_Bound P_Kc_Best P_Kc_Call P_Kc_Range
  T_InOut T_PyRef_Run T_Schedule T_Kc_Py T_Kc_Best T_Kc_Summary T_Kc_Range.
From Verif Require Import Spec Num.
Local Open Scope nat_scope.

(** After one or more iterations the value of a pair is at least its cost, team reward plus project reward, and that of a
    team is at least the cost of one of its pairs (or its reward plus the constant 1000000). *)
Theorem C96_values :
  forall (iters T D P : nat) (W : list (list nat)) (R : list (list Qc)) (reward : list Qc)
         (caps : list nat) (flag : bool) (alpha : Qc),
    kc_instance T D P W R reward caps -> (flag = true -> 0 <= alpha /\ alpha <= 1)%Qc -> 1 <= iters ->
    exists ext intr pairs : list Qc,
      package_kc T D P W (inj R) (map Fin reward) caps iters flag (Fin alpha) = Some (map Fin ext, map Fin intr, map Fin pairs) /\
      (forall p x, p < P -> x < T -> (pair_cost R reward p x <= nth (p * T + x) pairs 0)%Qc) /\
      (forall x, x < T -> (nth x reward 0 + zq 1000000 <= nth x intr 0)%Qc \/ exists p, p < P /\ (pair_cost R reward p x <= nth x intr 0)%Qc).
Proof.
  intros iters T D P W R reward caps flag alpha (HW & HR & Hr & Hc & Hp & Hfit & Htwo) Ha Hi.
  destruct (C50_kc_run iters T D P W R reward caps flag alpha HW HR Hr Hc Hp Hfit Htwo) as
    (ext & pairs & K & EO & Dm & X & TO & CE & EP & PE & OT & E & Le & Lp & K0 & EO0 & SE & St & Re & Rp).
  exists ext, (zip_with Qcplus ext reward), pairs. split.
  { unfold package_kc. rewrite E. cbn [bind]. now rewrite zip_Fin. }
  assert (iters =? 0 = false) as Z by (apply Nat.eqb_neq; lia). split.
  - intros p x Hpp Hx. rewrite Rp, Z by auto. unfold pair_cost.
    pose proof (TO_low T D P W R reward caps flag alpha HW Hc Ha K EO Dm X TO CE EP PE OT St (iters - 1) x Hx) as A.
    destruct (CE_facts T D P W R reward caps flag alpha Hc K EO Dm X TO CE EP PE OT St (iters - 1) p x Hpp Hx) as (B & _).
    destruct (PE_facts T D P W R reward caps flag alpha Hc K EO Dm X TO CE EP PE OT SE St (iters - 1) p x Hpp Hx) as (C & _). qlra.
  - intros x Hx.
    assert (N : nth x (zip_with Qcplus ext reward) 0%Qc = (nth x ext 0 + nth x reward 0)%Qc).
    { clear -Hx Le Hr. revert x reward T Hr Le Hx. induction ext as [|a ext IH]; intros [|x] [|b r] T Hr Le Hx; cbn in *; try lia; [reflexivity|].
      destruct T; [lia|]. apply (IH x r T); lia. }
    rewrite N, Re, Z by auto.
    assert (S0 : (0 <= qsum (map (fun d => qat (X (iters - 1)%nat) d x) (seq 0 D)))%Qc).
    { apply qsum_ge0. intros d I. apply in_seq in I.
      apply (X_low T D P W R reward caps flag alpha HW Hc Ha K EO Dm X TO CE EP PE OT St (iters - 1) d x); lia. }
    destruct (OT_facts T D P W R reward caps flag alpha Hc K EO Dm X TO CE EP PE OT St (iters - 1) x Hx) as (_ & _ & [Q|(p & Hpp & Q)]).
    + left. rewrite Q. qlra.
    + right. exists p. split; [exact Hpp|]. rewrite Q.
      pose proof (EO_low T D P W R reward caps flag alpha Hc K EO Dm X TO CE EP PE OT SE St (iters - 1) p x Hpp Hx). unfold pair_cost. qlra.
Qed.

(** A complete call, any number of iterations: every matched pair costs less than the threshold. *)
Theorem C96_matched :
  forall iters flag (alpha th : Qc) pp opt caps types (rt : list Qc) (rp : list (list Qc)) P o teams,
    Forall (fun ty => 1 <= ty <= 5) types -> types <> [] ->
    kc_initialize caps types = Some o -> room caps types (o_combos o) -> generated caps types (o_combos o) teams ->
    (th <= 0)%Qc -> (pp = true -> opt = 1 \/ opt = 2) -> (flag = true -> 0 <= alpha /\ alpha <= 1)%Qc ->
    length rt = length teams -> shape (length teams) P rp ->
    exists a,
      kc_call iters flag (Fin alpha) (Fin th) pp opt caps types (map Fin rt) (inj rp) = Some a /\
      forall p t, In (p, t) (p_pairs (a_pre a)) -> p < P /\ t < length teams /\ (nth t rt 0 + qat rp t p < th)%Qc.
Proof.
  intros iters flag alpha th pp opt caps types rt rp P o teams Ht Hne E Hroom Hg Hth Hopt Ha Lr Sr.
  destruct (call_instance _ _ _ _ _ _ _ Ht Hne E Hroom Hg Lr Sr) as (Inst & wf & Ec & HD).
  destruct (C53_kc_call iters flag alpha (Fin th) pp opt caps types rt rp P o teams Ht Hne E Hroom Hg Hth Hopt Lr Sr) as
    (a & ext' & pairs' & Ecall & _ & Ew & _ & _ & Hpr & _).
  exists a. split; [exact Ecall|]. intros p t I. apply Hpr in I. destruct I as (Hp & Htt & L). split; [exact Hp|]. split; [exact Htt|].
  cbn [nlt] in L. apply qltb_true in L. rewrite (Nat.mul_comm (length teams) p) in L.
  destruct iters as [|n].
  - exfalso. destruct Inst as (HW & HR & Hr & Hc & Hpt & Hfit & Htwo).
    destruct (C50_kc_run 0 (length teams) (length caps) P (o_weights o) (columns P rp) rt caps flag alpha HW HR Hr Hc Hpt Hfit Htwo) as
      (e0 & pr & K & EO & Dm & X & TO & CE & EP & PE & OT & E0 & _ & _ & _ & _ & _ & _ & _ & Rp).
    unfold columns in E0 at 1. rewrite <- transpose_inj, Ew in E0. injection E0 as _ Q. apply fin_inj in Q. subst pr.
    rewrite Rp in L by auto. cbn in L. qlra.
  - destruct (C96_values (S n) _ _ _ _ _ _ _ flag alpha Inst Ha ltac:(lia)) as (e0 & i0 & pr & E0 & V & _).
    unfold package_kc in E0. cbn zeta in E0. unfold columns in E0. rewrite <- transpose_inj, Ew in E0. cbn [bind] in E0.
    injection E0 as _ _ Q. apply fin_inj in Q. subst pr. specialize (V p t Hp Htt). unfold pair_cost in V.
    assert (Eq : qat (columns P rp) p t = qat rp t p).
    { unfold qat, columns. rewrite nth_mapseq by auto.
      rewrite (nth_indep _ 0%Qc (nth p [] 0%Qc)) by (rewrite map_length; destruct Sr as [-> _]; auto).
      now rewrite map_nth with (f := fun r => nth p r 0%Qc). }
    rewrite Eq in V. qlra.
Qed.

(** So what is reported after post-processing costs at most the threshold per pair: it is never worse than reporting nothing. *)
Theorem C96_reported :
  forall iters flag (alpha th : Qc) opt caps types (rt : list Qc) (rp : list (list Qc)) P o teams,
    Forall (fun ty => 1 <= ty <= 5) types -> types <> [] ->
    kc_initialize caps types = Some o -> room caps types (o_combos o) -> generated caps types (o_combos o) teams ->
    (th <= 0)%Qc -> opt = 1 \/ opt = 2 -> (flag = true -> 0 <= alpha /\ alpha <= 1)%Qc ->
    length rt = length teams -> shape (length teams) P rp ->
    exists a F,
      kc_call iters flag (Fin alpha) (Fin th) true opt caps types (map Fin rt) (inj rp) = Some a /\
      selection (length teams) (length caps) P (o_weights o) caps F /\
      a_results a = map (fun e =>
        {| r_u := u_of teams (snd e); r_v := v_of teams (snd e); r_type := t_type (nth (snd e) teams (0, 0, 0));
           r_teams := [snd e + 1]; r_projects := [fst e + 1] |}) F /\
      (qsum (map (fun e => nth (snd e) rt 0 + qat rp (snd e) (fst e)) F) <= P_Kc_Range.qn (length F) * th)%Qc /\
      (F <> [] -> qsum (map (fun e => nth (snd e) rt 0 + qat rp (snd e) (fst e)) F) < 0)%Qc.
Proof.
  intros iters flag alpha th opt caps types rt rp P o teams Ht Hne E Hroom Hg Hth Hopt Ha Lr Sr.
  destruct (C76_feasible iters flag alpha (Fin th) opt caps types rt rp P o teams) as (a & F & Ea & Sel & I & _ & Er); auto.
  destruct (C96_matched iters flag alpha th true opt caps types rt rp P o teams) as (a' & Ea' & V); auto.
  rewrite Ea in Ea'. injection Ea' as <-. exists a, F. split; [exact Ea|]. split; [exact Sel|]. split; [exact Er|].
  assert (G : forall F', incl F' F ->
    (qsum (map (fun e => nth (snd e) rt 0 + qat rp (snd e) (fst e)) F') <= P_Kc_Range.qn (length F') * th)%Qc /\
    (F' <> [] -> qsum (map (fun e => nth (snd e) rt 0 + qat rp (snd e) (fst e)) F') < 0)%Qc).
  { induction F' as [|[p t] F' IH]; intros J.
    - split; [|congruence]. change (P_Kc_Range.qn (length (@nil (nat * nat)))) with 0%Qc. unfold qsum. cbn. qlra.
    - destruct IH as (A & B); [intros e He; apply J; now right|].
      destruct (V p t) as (_ & _ & L); [apply I, J; now left|].
      cbn [map length fst snd].
      assert (Q : forall x l, qsum (x :: l) = (x + qsum l)%Qc) by reflexivity. rewrite Q.
      assert (N : P_Kc_Range.qn (S (length F')) = (1 + P_Kc_Range.qn (length F'))%Qc).
      { unfold P_Kc_Range.qn. rewrite Nat2Z.inj_succ, <- Z.add_1_l, P_Float.zq_add. reflexivity. }
      rewrite N. split; [qlra|]. intros _.
      assert (Z : (qsum (map (fun e => nth (snd e) rt 0 + qat rp (snd e) (fst e)) F') <= 0)%Qc).
      { destruct F' as [|e F'']; [unfold qsum; cbn; apply Qcle_refl|]. apply Qclt_le_weak, B. discriminate. }
      qlra. }
  apply (G F (incl_refl F)).
Qed.

(** ** Examples *)
(** three teams, four projects; team 0 costs -10 + 30 with project 1, -10 + 20 with project 3, ... *)
Definition cost_rp : list (list Qc) := map (map zq) [[-50; 30; 0; 20]; [15; 20; -50; 8]; [-5; 0; 40; 60]]%Z.
Example C96_example :
  exists o a, Forall (fun ty => 1 <= ty <= 5) [1; 3] /\
    kc_initialize [2] [1; 3] = Some o /\ generated [2] [1; 3] (o_combos o) sum_teams /\ room [2] [1; 3] (o_combos o) /\
    length sum_rt = length sum_teams /\ shape (length sum_teams) 4 cost_rp /\
    kc_call 3 true (Fin (Q2Qc (1 # 2))) n0 true 2 [2] [1; 3] (map Fin sum_rt) (inj cost_rp) = Some a /\
    p_pairs (a_pre a) = [(0, 0); (2, 1)] /\ q_sel (a_post a) = [0; 1] /\
    (* team 2 would like project 1, cost -10, but has no room *)
    qat cost_rp 2 1 = 0%Qc /\ (nth 2 sum_rt 0 < 0)%Qc.
Proof.
  destruct (sum_setup [1; 3] sum_teams [(1, 1)]) as [G Ro]; [now left|].
  eexists. eexists. split; [repeat constructor; lia|]. split; [vm_compute; reflexivity|]. split; [exact G|]. split; [exact Ro|].
  split; [reflexivity|]. split; [split; [reflexivity|repeat constructor]|]. split; [vm_compute; reflexivity|].
  repeat split; vm_compute; reflexivity.
Qed.
(** The value can be the cost itself. *)
Example C96_tight :
  kc_instance 1 1 1 [[1]] [[zq 3]] [zq (-7)] [1] /\
  option_map (fun r => map view (snd r)) (package_kc 1 1 1 [[1]] (inj [[zq 3]]) [zn (-7)] [1] 5 false n0) = Some [VFin (-4)].
Proof.
  split; [|vm_compute; reflexivity]. unfold kc_instance. repeat split; auto; repeat constructor.
  all: try (intros [|d] ws Hd; cbn in Hd; [injection Hd as <-; exists 0, 1; split; [reflexivity|lia]|destruct d; discriminate]).
  all: try (intros [|d] ws cap Hd Hcp; cbn in Hd, Hcp; [injection Hd as <-; injection Hcp as <-; repeat constructor|destruct d; discriminate]).
  all: intros; lia.
Qed.
(** The factor of the filter matters: with factor 3 the pair of project 0 and team 2, of cost 1, has the value -2. *)
Definition cost_R : list (list Qc) := map (map zq) [[-4; -1; 4]; [-3; -5; 6]]%Z.
Theorem C96_factor_refuted :
  ~ (forall (iters T D P : nat) (W : list (list nat)) (R : list (list Qc)) (reward : list Qc) (caps : list nat) (flag : bool) (alpha : Qc)
       (ext intr pairs : list Qc) (p x : nat),
      kc_instance T D P W R reward caps -> 1 <= iters ->
      package_kc T D P W (inj R) (map Fin reward) caps iters flag (Fin alpha) = Some (map Fin ext, map Fin intr, map Fin pairs) ->
      p < P -> x < T -> (pair_cost R reward p x <= nth (p * T + x) pairs 0)%Qc).
Proof.
  intros H.
  specialize (H 2 3 2 2 kcW cost_R kc_reward3 [3; 2] true (zq 3)
    (map zq [3; -21; -11]%Z) (map zq [2; -23; -14]%Z) (map zq [2; 8; -2; 8; -6; 6]%Z) 0 2).
  assert (X : (pair_cost cost_R kc_reward3 0 2 <= zq (-2))%Qc).
  { apply H; try lia; [apply kc_instance3; split; repeat constructor|]. vm_compute. reflexivity. }
  revert X. vm_compute. intros X. now apply X.
Qed.

Print Assumptions C96_values.
Print Assumptions C96_matched.
Print Assumptions C96_reported.
Print Assumptions C96_factor_refuted.
