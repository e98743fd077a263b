(** * TSP: the relaxed stage and every augmented round as min-sum schedules *)
From Coq Require Import Permutation.
From Verif Require Import Num NumFacts Arr ArrFacts Spec SpecRun SpecGraph MinSum MinSumFacts.
From Verif Require Import M_Tsp_Constraints P_Tsp_Constraints P_Kc_Trellis P_Ksat M_Equality P_Equality.
From Verif Require Import M_Filter P_Filter M_InOut P_InOut M_Runs P_Runs.
From Verif Require Import M_Tsp_Loops P_Tsp_Loops M_Tsp_Run P_Tsp_Run P_Tsp_Fin P_Schedule P_Tsp_Sched.
Local Open Scope nat_scope.

Lemma qat_default A i j : length A <= i -> qat A i j = 0%Qc.
Proof. intros H. unfold qat. rewrite (nth_overflow A) by auto. destruct j; reflexivity. Qed.
Lemma nth_unv_zero k j : nth j (unv (repeat n0 k)) 0%Qc = 0%Qc.
Proof. revert j. induction k as [|k IH]; intros [|j]; cbn; auto. Qed.
Lemma qat_unm_zeros k e i j : qat (unm (zeros k e)) i j = 0%Qc.
Proof.
  unfold qat, unm, zeros. rewrite map_repeat.
  revert i. induction k as [|k IH]; intros [|i]; cbn [repeat nth]; auto; try (destruct j; reflexivity).
  apply nth_unv_zero.
Qed.
Lemma qat_app_zeros m k e i j : qat (unm (m ++ zeros k e)) i j = qat (unm m) i j.
Proof.
  unfold qat, unm. rewrite map_app. destruct (Nat.lt_ge_cases i (length m)) as [L|L].
  - rewrite app_nth1 by (rewrite map_length; auto). reflexivity.
  - rewrite app_nth2, map_length by (rewrite map_length; auto).
    change (qat (unm (zeros k e)) (i - length m) j = nth j (nth i (map unv m) []) 0%Qc).
    rewrite qat_unm_zeros, (nth_overflow (map unv m)) by (rewrite map_length; auto). destruct j; reflexivity.
Qed.

Lemma analyse_deltas p sel a a' : analyse p sel a = Some a' -> exists new, a_deltas a' = a_deltas a ++ new.
Proof.
  intros A. destruct (analyse_inv _ _ _ _ A) as (loops & G & _ & [Lo Dl _ _ _ _ _ _ | h _ _ Dl _ Tf _ _ _ _ | Nl _ Dl _ _ _ _ _ _]).
  all: try (exists []; rewrite app_nil_r; exact Dl).
  rewrite Dl. destruct (add_all_spec (tsp_edges (p_in p)) loops (a_deltas a)) as ((new & S1) & _). eauto.
Qed.

Section Reset.
Variables (n : nat) (E : list (nat * nat)).
Hypothesis Hn : 3 <= n.
Hypothesis HE : complete n E.
Lemma reset_sem CM V : shape n n CM -> shape (length E) n V ->
  exists Q, reset_messages E (inj CM) (inj V) = Some (inj Q) /\ shape (length E) n Q /\
    forall i u v, nth_error E i = Some (u, v) -> qat Q i u = qat CM u v /\ qat Q i v = qat CM u v.
Proof.
  intros SC SV. set (e := length E) in *.
  destruct (reset_fin n E Hn HE (inj CM) (inj V)) as (o & Eo & (Q & SQ & ->)); [exists CM; auto|exists V; auto|].
  exists Q. split; [exact Eo|]. split; [exact SQ|]. fold e in SQ. revert Eo.
  unfold reset_messages.
  match goal with |- context [for_up 0 ?k0 ?st0 ?bd] =>
    destruct (for_up_ind 0 k0 st0 bd (fun i st => shape e n st /\
      forall j u v, j < i -> nth_error E j = Some (u, v) ->
        get2 st j u = Some (Fin (qat CM u v)) /\ get2 st j v = Some (Fin (qat CM u v))))
      as (st & Es & Ss & H) end.
  - lia.
  - split; [apply shape_inj; auto|]. intros; lia.
  - intros i st Hi (Ss & H). fold e in Hi.
    destruct (get_lt E i) as ((u & v) & G); [unfold e in Hi; lia|]. rewrite G; cbn [bind].
    assert (Huv : u < n /\ v < n /\ u <> v) by (apply (proj2 HE); exact (nth_error_In _ _ G)).
    destruct Huv as (Hu & Hv & Nuv).
    rewrite (get2_inj n n) by auto. cbn [bind].
    rewrite (set2_lt e n) by (auto; lia). cbn [bind].
    rewrite (set2_lt e n) by (try apply shape_upd2; auto; lia).
    eexists. split; [reflexivity|]. split; [apply shape_upd2, shape_upd2; auto|].
    intros j x y Hj Gj.
    rewrite !(get2_upd2 e n) by (try apply shape_upd2; auto; lia).
    destruct (Nat.eqb_spec i j) as [<-|Nij]; cbn [andb].
    + unfold get in G. rewrite G in Gj. injection Gj as <- <-. rewrite !Nat.eqb_refl.
      destruct (Nat.eqb_spec v u); [lia|]. auto.
    + apply H; auto; lia.
  - rewrite Es. intros X. injection X as ->. intros i u v G.
    assert (Hi : i < e) by (unfold e; apply nth_error_Some; congruence).
    assert (Huv : u < n /\ v < n /\ u <> v) by (apply (proj2 HE); exact (nth_error_In _ _ G)).
    destruct (H i u v) as [K1 K2]; auto. rewrite (get2_inj e n) in K1, K2 by (auto; tauto).
    split; congruence.
Qed.
End Reset.

Section Run.
Variable p : tsp_params.
Let n := p_n p.
Let e := p_e p.
Let E := tsp_edges (p_in p).
Variables (al : Qc) (cost : list Qc) (C CM V0 : list (list Qc)).
Hypothesis Hn : 3 <= n.
Hypothesis HE : complete n E.
Hypothesis He : length E = e.
Hypothesis Hal : p_alpha p = Fin al.
Hypothesis Hcost : tsp_cost_edge (p_in p) = map Fin cost.
Hypothesis Lcost : length cost = e.
Hypothesis HC : tsp_degree_cost (p_in p) = inj C.
Hypothesis SC : shape e n C.
Hypothesis HCM : tsp_cost_matrix (p_in p) = inj CM.
Hypothesis SCM : shape n n CM.
Hypothesis HV0 : tsp_edge2degree (p_in p) = inj V0.
Hypothesis SV0 : shape e n V0.
Hypothesis Po : forall l, Permutation (p_ord p l) l.

Let Ha : exists al, p_alpha p = Fin al. Proof. exact (ex_intro _ al Hal). Qed.
Let Fce : finv e (tsp_cost_edge (p_in p)). Proof. exact (ex_intro _ cost (conj Lcost Hcost)). Qed.
Let Fdc : finm e n (tsp_degree_cost (p_in p)). Proof. exact (ex_intro _ C (conj SC HC)). Qed.
Let Fcm : finm n n (tsp_cost_matrix (p_in p)). Proof. exact (ex_intro _ CM (conj SCM HCM)). Qed.
Let Fed : finm e n (tsp_edge2degree (p_in p)). Proof. exact (ex_intro _ V0 (conj SV0 HV0)). Qed.

(** values at the end of a phase: the sum of the messages an edge receives *)
Definition value_eq (iters S : nat) (M B : list (list Qc)) (sol : tsp_sol) : Prop :=
  exists x y, r_extr sol = map Fin x /\ r_intr sol = map Fin y /\ length x = e /\ length y = e /\
  forall i u v, nth_error E i = Some (u, v) ->
    (Nat.lt 0 iters -> nth i x 0%Qc = qat M i u + qat M i v + sumcol B S i)%Qc /\
    (nth i y 0 = nth i x 0 + nth i cost 0)%Qc.

Lemma relaxed_stage st : iterate_relaxed p (tsp_init p) = Some st ->
  exists V Dg M, V 0 = V0 /\ relaxed_phase p al C V Dg M /\
    unm (m_e2d (t_msgs st)) = V (p_iters p) /\ m_sub (t_msgs st) = [] /\ m_sub_dummy (t_msgs st) = [] /\
    off_zero n E (unm (m_deg_dummy (t_msgs st))) /\
    value_eq (p_iters p) 0 (M (p_iters p - 1)) [] (t_sol st).
Proof.
  intros R. pose proof (relaxed_sub _ _ R) as RS.
  unfold iterate_relaxed in R.
  destruct (relaxed_run_sem p al cost C Hn HE He Hal Lcost HC SC (t_msgs (tsp_init p))) as (m & V & Dg & M & Em & Fm & O & V00 & PH & Ve & Md).
  { unfold fin_msgs; cbn. fold e n. do 4 (split; [auto using finm_zeros|]).
    split; [exists []; split; [split; [reflexivity|constructor]|reflexivity]|].
    split; [exists []; split; [split; [reflexivity|constructor]|reflexivity]|].
    exists 0, []; split; [split; [reflexivity|constructor]|reflexivity]. }
  { intros i u v w _ _ _ _. cbn. apply qat_unm_zeros. }
  rewrite Em in R; cbn [bind] in R.
  exists V, Dg, M.
  pose proof Fm as (_ & _ & _ & (Q & SQ & EQ) & (B & SB & EB) & (B' & SB' & EB') & _). fold e n in SQ, SB, SB'.
  destruct (extrinsic_relaxed_ok e n Q (r_extr (t_sol (tsp_init p))) SQ) as (x & Ex & Lx & Hx);
    [cbn; apply repeat_length|].
  rewrite EQ, Ex in R; cbn [bind] in R. rewrite Hcost in R.
  destruct (intrinsic_output_ok e x cost (r_intr (t_sol (tsp_init p))) Lx Lcost) as (y & Ey & Ly & Hy);
    [cbn; apply repeat_length|]. rewrite Ey in R; cbn [bind] in R.
  destruct (select_edges _ _ _) as [sel|]; cbn [bind] in R; [|discriminate].
  destruct (selection_cost _ _) as [cst|]; cbn [bind] in R; [|discriminate].
  destruct (analyse _ _ _) as [a|]; cbn [bind] in R; [|discriminate]. injection R as <-. cbn [t_msgs t_sol].
  split; [rewrite V00; cbn; rewrite HV0; apply unm_inj|]. split; [exact PH|]. split; [exact Ve|].
  split; [destruct B; [exact EB|destruct SB; discriminate]|].
  split; [destruct B'; [exact EB'|destruct SB'; discriminate]|]. split; [exact O|].
  exists x, y. cbn [r_extr r_intr]. do 4 (split; [solve [auto]|]). intros i u v G.
  assert (Hi : i < e) by (rewrite <- He; apply nth_error_Some; congruence).
  split; [|apply Hy; auto]. intros Hp. destruct (Md Hp) as [M1 M2].
  rewrite Hx by auto. rewrite EQ, unm_inj in M1. rewrite <- M1 in M2 |- *.
  rewrite (row_sum n E HE Q i u v); auto; [|rewrite He; exact SQ].
  unfold sumcol. cbn [seq map]. change (qsum []) with 0%Qc. ring.
Qed.

(** what holds of the stored messages after every stage *)
Definition kept (st : tsp_state) : Prop :=
  (exists S, fin_state p S st /\ S <= length (a_deltas (t_an st))) /\
  off_zero n E (unm (m_deg_dummy (t_msgs st))) /\
  sub_off p (a_deltas (t_an st)) (unm (m_sub (t_msgs st))) /\
  sub_off p (a_deltas (t_an st)) (unm (m_sub_dummy (t_msgs st))).

Lemma round_stage st st' : kept st -> iterate_augmented p (grow p st) = Some (Returned st') ->
  kept st' /\
  exists V Dg M B ES SD,
    (forall i u v, nth_error E i = Some (u, v) ->
       if p_reset p then qat (V 0) i u = qat CM u v /\ qat (V 0) i v = qat CM u v
       else qat (V 0) i u = qat (unm (m_e2d (t_msgs st))) i u /\ qat (V 0) i v = qat (unm (m_e2d (t_msgs st))) i v) /\
    (forall s i, qat (B 0) s i = qat (unm (m_sub (t_msgs st))) s i) /\
    round_phase p al cost C (a_deltas (t_an st)) V Dg M B ES SD /\
    unm (m_e2d (t_msgs st')) = V (p_iters p) /\ unm (m_sub (t_msgs st')) = B (p_iters p) /\
    value_eq (p_iters p) (length (a_deltas (t_an st))) (M (p_iters p - 1)) (B (p_iters p)) (t_sol st').
Proof.
  intros ((S & F & L) & OD & SO & SD) R.
  pose proof (grow_fin p Hn He S st F L) as G.
  destruct (grow_fields p st) as (G1 & G2 & G3).
  assert (Gm : m_e2d (t_msgs (grow p st)) = m_e2d (t_msgs st) /\
    m_deg_dummy (t_msgs (grow p st)) = m_deg_dummy (t_msgs st) /\
    (forall s i, qat (unm (m_sub (t_msgs (grow p st)))) s i = qat (unm (m_sub (t_msgs st))) s i) /\
    sub_off p (a_deltas (t_an st)) (unm (m_sub (t_msgs (grow p st)))) /\
    sub_off p (a_deltas (t_an st)) (unm (m_sub_dummy (t_msgs (grow p st))))).
  { unfold grow. destruct (_ =? _); [auto 10|]. cbn [set_msgs t_msgs extend_sub m_e2d m_deg_dummy m_sub m_sub_dummy].
    split; [reflexivity|]. split; [reflexivity|]. split; [intros; apply qat_app_zeros|].
    split; intros s d i Gd Hi NI; rewrite qat_app_zeros; eapply SO; eauto. }
  destruct Gm as (Ge & Gdd & Gs & Gso & Gsd).
  pose proof G as ((F1 & F2 & F3 & F4 & F5 & F6 & (N & F7)) & Fx & Fi & _ & Gd). rewrite G2 in Gd.
  rewrite <- G2 in G. destruct (augmented_fin p Hn HE He Ha Fce Fcm Fdc Po _ G) as (st2 & R2 & Fs2 & Ls2).
  rewrite R in R2. injection R2 as <-. rewrite G2 in Fs2, Ls2.
  revert R. unfold iterate_augmented. rewrite G2. fold e n E. set (deltas := a_deltas (t_an st)) in *.
  assert (RS : exists e2d, (if p_reset p then reset_messages E (tsp_cost_matrix (p_in p)) (m_e2d (t_msgs (grow p st)))
    else Some (m_e2d (t_msgs (grow p st)))) = Some e2d /\ finm e n e2d /\
    forall i u v, nth_error E i = Some (u, v) ->
       if p_reset p then qat (unm e2d) i u = qat CM u v /\ qat (unm e2d) i v = qat CM u v
       else qat (unm e2d) i u = qat (unm (m_e2d (t_msgs st))) i u /\ qat (unm e2d) i v = qat (unm (m_e2d (t_msgs st))) i v).
  { destruct (p_reset p).
    - destruct F1 as (Q0 & SQ0 & EQ0). fold e n in SQ0. rewrite EQ0, HCM. rewrite <- He in SQ0.
      destruct (reset_sem n E Hn HE CM Q0 SCM SQ0) as (Q & E1 & SQ & HQ). exists (inj Q). split; [exact E1|].
      split; [exists Q; split; [rewrite <- He; exact SQ|reflexivity]|]. rewrite unm_inj. exact HQ.
    - eexists. split; [reflexivity|]. split; [exact F1|]. rewrite Ge. auto. }
  destruct RS as (e2d & R1 & R2 & R3). rewrite R1; cbn [bind].
  match goal with |- context [for_up 0 _ ?mm _] => set (m0 := mm);
    destruct (round_run_sem p al cost C Hn HE He Hal Hcost Lcost HC SC deltas Gd m0)
      as (m & V & Dg & M & B & ES & SDm & Em & Fm & O & Z & Y & V00 & B00 & PH & Ve & Be & Md) end.
  { unfold fin_msgs, m0; cbn. assert (X : finm (N + length deltas) e (m_sub_old (t_msgs (grow p st)) ++ zeros (length deltas) e))
      by (apply (finm_app p Hn He); [exact F7|apply finm_zeros]). eauto 10. }
  { exists (N + length deltas). split; [lia|]. unfold m0; cbn. apply (finm_app p Hn He); [exact F7|apply finm_zeros]. }
  { unfold m0; cbn. rewrite Gdd. exact OD. }
  { exact Gsd. } { exact Gso. }
  rewrite Em; cbn [bind]. pose proof Fm as (M1 & _ & _ & (Q & SQ & EQ) & (Q' & SQ' & EQ') & _).
  rewrite (finm_no_nan _ _ _ M1). fold e n in SQ, SQ'.
  destruct (extrinsic_augmented_ok e n _ Q Q' (r_extr (t_sol (grow p st))) SQ SQ') as (x & Ex & Lx & Hx);
    [exact (finv_length _ _ Fx)|]. rewrite EQ, EQ', Ex; cbn [bind]. rewrite Hcost.
  destruct (intrinsic_output_ok e x cost (r_intr (t_sol (grow p st))) Lx Lcost) as (y & Ey & Ly & Hy);
    [exact (finv_length _ _ Fi)|]. rewrite Ey; cbn [bind].
  destruct (select_edges _ _ _) as [sel|]; cbn [bind]; [|intros X; discriminate X].
  destruct (selection_cost _ _) as [cst|]; cbn [bind]; [|intros X; discriminate X].
  destruct (analyse p sel (t_an st)) as [a|] eqn:An; cbn [bind]; [|intros X; discriminate X].
  intros R. injection R as R.
  assert (Q1 : t_msgs st' = m) by (rewrite <- R; reflexivity).
  assert (Q2 : r_extr (t_sol st') = map Fin x) by (rewrite <- R; reflexivity).
  assert (Q3 : r_intr (t_sol st') = map Fin y) by (rewrite <- R; reflexivity).
  assert (Q4 : exists new, a_deltas (t_an st') = deltas ++ new).
  { rewrite <- R; cbn [t_an]. unfold deltas. eapply analyse_deltas; eauto. }
  clear R. destruct Q4 as (new & Q4).
  assert (EXT : forall X, (exists k, shape (length deltas) k X) -> sub_off p deltas X -> sub_off p (a_deltas (t_an st')) X).
  { intros X (k & SX & _) HX q d i Gq Hi NI. rewrite Q4 in Gq. destruct (Nat.lt_ge_cases q (length deltas)) as [Lq|Lq].
    - rewrite nth_error_app1 in Gq by auto. eapply HX; eauto.
    - apply qat_default. lia. }
  split.
  - split; [exists (length deltas); split; [exact Fs2|exact Ls2]|]. rewrite Q1. split; [exact O|].
    split; apply EXT; auto; exists e.
    + rewrite EQ', unm_inj. exact SQ'.
    + destruct Fm as (_ & _ & _ & _ & _ & (Q2' & SQ2 & EQ2) & _). rewrite EQ2, unm_inj. exact SQ2.
  - exists V, Dg, M, B, ES, SDm. rewrite Q1.
    split; [rewrite V00; exact R3|]. split; [intros s i; rewrite B00; exact (Gs s i)|].
    split; [exact PH|]. split; [exact Ve|]. split; [exact Be|].
    exists x, y. do 4 (split; [solve [auto]|]). intros i u v Gi.
    assert (Hi : i < e) by (rewrite <- He; apply nth_error_Some; congruence).
    split; [|apply Hy; auto]. intros Hp. destruct (Md Hp) as [MM1 MM2].
    rewrite Hx by auto. rewrite EQ, unm_inj in MM1. rewrite <- MM1 in MM2 |- *.
    rewrite (row_sum n E HE Q i u v); auto; [|rewrite He; exact SQ].
    rewrite EQ', unm_inj in Be. rewrite Be. reflexivity.
Qed.

Lemma history_kept st l : history p (st :: l) -> kept st.
Proof.
  intros H. remember (st :: l) as hs eqn:Q. revert st l Q.
  induction H as [st0 R|st0 st1 l0 H IH Cn R]; intros st l Q; injection Q as <- <-.
  - destruct (relaxed_stage _ R) as (V & Dg & M & _ & _ & _ & Q1 & Q2 & Q3 & _).
    split; [apply (history_fin p Hn HE He Ha Fce Fcm Fdc Fed Po st0 []); constructor; auto|].
    split; [exact Q3|]. rewrite Q1, Q2. split; intros s d i _ _ _; apply qat_default; cbn; lia.
  - apply (round_stage st0 st1); auto. eapply IH; reflexivity.
Qed.
End Run.
