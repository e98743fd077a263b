(** * KC-MWM: all messages of all states of a run stay in one range. *)
From Verif Require Import NumFacts Arr ArrFacts Spec SpecRun SpecRange MinSum MinSumFacts.
From Verif Require Import M_Kc_Trellis P_Tsp_Constraints P_Kc_Trellis M_Equality P_Equality M_Filter P_Filter M_InOut P_InOut.
From Verif Require Import M_Knapsack P_Knapsack P_Team_Knapsack M_Runs P_Runs P_Schedule P_Kc_Run P_Ksat P_Tsp_Rounds P_Kc_Settled P_Kc_Messages.
From Verif Require P_Float_Kc.
From Verif Require Import P_Kc_Best P_Kc_Range.
From Verif Require Import Num.
Local Open Scope nat_scope.

Lemma qsum_part (f : nat -> Qc) g l : (forall d, In d l -> (0 <= f d)%Qc) -> (qsum (map f (filter g l)) <= qsum (map f l))%Qc.
Proof.
  induction l as [|d l IH]; intros H; [apply Qcle_refl|]. specialize (IH (fun e I => H e (or_intror I))).
  pose proof (H d (or_introl eq_refl)). cbn [filter map]. destruct (g d); cbn [map]; rewrite ?qsum_cons; qlra.
Qed.
Lemma mat_range r c m lim : finm r c m -> (forall i j, i < r -> j < c -> (- lim <= qat (unm m) i j /\ qat (unm m) i j <= lim)%Qc) ->
  Forall (Forall (fun v => match v with Fin q => (- lim <= q /\ q <= lim)%Qc | _ => True end)) m.
Proof.
  intros F H. destruct (finm_unm _ _ _ F) as (E & S). rewrite E. unfold inj. apply Forall_map, Forall_forall. intros row I.
  apply (In_nth _ _ []) in I as (i & Hi & <-). apply Forall_map, Forall_forall. intros v I.
  apply (In_nth _ _ 0%Qc) in I as (j & Hj & <-). destruct S as (L & Fr). rewrite L in Hi.
  apply H; auto. rewrite Forall_forall in Fr. rewrite Fr in Hj; auto. apply nth_In. lia.
Qed.
Lemma vec_range r l lim : finv r l -> (forall i, i < r -> (- lim <= nth i (unv l) 0 /\ nth i (unv l) 0 <= lim)%Qc) ->
  Forall (fun v => match v with Fin q => (- lim <= q /\ q <= lim)%Qc | _ => True end) l.
Proof.
  intros F H. destruct (finv_unv _ _ F) as (E & S). rewrite E. apply Forall_map, Forall_forall. intros v I.
  apply (In_nth _ _ 0%Qc) in I as (j & Hj & <-). apply H. lia.
Qed.
Lemma qn_pos n : n <> 0 -> (1 <= qn n)%Qc.
Proof. destruct n as [|n]; [congruence|]. intros _. rewrite qn_S. pose proof (qn_nonneg n). qlra. Qed.

Section States.
Variables (T D P : nat) (flag : bool) (alpha : Qc).
Variables (W : list (list nat)) (R : list (list Qc)) (reward : list Qc) (caps : list nat).
Variable t0 : list (list num).
Hypothesis HW : shape D T W.
Hypothesis HR : shape P T R.
Hypothesis Hrew : length reward = T.
Hypothesis Hcaps : length caps = D.
Hypothesis Hpart : forall d ws, get W d = Some ws -> participants T ws <> [].
Hypothesis Hfit : forall d ws cap, get W d = Some ws -> get caps d = Some cap -> Forall (fun w => w <= cap) ws.
Let nzs := map (participants T) W.
Hypothesis Htwo : forall d1 d2 d3 l, d1 < D -> d2 < D -> d3 < D ->
  In l (nth d1 nzs []) -> In l (nth d2 nzs []) -> In l (nth d3 nzs []) -> d1 = d2 \/ d1 = d3 \/ d2 = d3.
Let sizes := map (@length nat) nzs.
Let inp := {| kc_reward_team := map Fin reward; kc_team2knapsack := t0; kc_weights := W;
              kc_reward_project := inj R; kc_max_state := caps; kc_nonzero := nzs |}.
Hypothesis H0 : finm D T t0.
Hypothesis Hstart : forall d x, d < D -> x < T -> qat (unm t0) d x = if takes_part W d x then nth x reward 0%Qc else 0%Qc.
Hypothesis Hflag : flag = true -> (0 <= alpha /\ alpha <= 1)%Qc.
Variable B : Qc.
Hypothesis Hw : rewards_within T P R reward B.
Hypothesis HP : P <> 0.
Let Y : Qc := (qn T * (B + B))%Qc.
Let lim : Qc := (B + B + B + B + qn D * Y)%Qc.

Lemma kc_all_range t st : for_up 0 t (kc_init T D P t0) (kc_step flag (Fin alpha) T D P inp sizes) = Some st ->
  P_Float_Kc.kc_all (fun v => match v with Fin q => (- lim <= q /\ q <= lim)%Qc | _ => True end) st.
Proof.
  destruct Hw as (HB & Br & BR).
  destruct (run_seq (kc_init T D P t0) (kc_step flag (Fin alpha) T D P inp sizes) (kc_fin T D P))
    as (s & S0 & HS).
  { unfold kc_fin, kc_init; cbn. repeat match goal with |- _ /\ _ => split end; auto using finm_zeros, finv_zeros. }
  { intros st' i F. destruct (kc_step_sem T D P flag alpha W R reward caps t0 HW HR Hrew Hcaps Hpart Hfit Htwo st' i F) as (st'' & E & F' & _). eauto. }
  assert (ST : forall t, kc_equations T D P W R reward caps (unm (kc_t2k (s t))) (unm (kc_eq2oric (s t))) (unm (kc_dummy (s (t + 1)))) (unm (kc_extr (s (t + 1))))
      (unv (kc_team2oric (s (t + 1)))) (unm (kc_oric2eq (s (t + 1)))) (unm (kc_eq2project (s (t + 1)))) (unm (kc_project2eq (s (t + 1))))
      (unm (kc_eq2oric (s (t + 1)))) (unv (kc_oric2team (s (t + 1)))) (unm (kc_t2k (s (t + 1)))) /\
    (forall d x, d < D -> x < T -> qat (unm (kc_extr (s (t + 1)))) d x =
       blend1 flag alpha t (qat (unm (kc_dummy (s (t + 1)))) d x) (qat (unm (kc_extr_old (s t))) d x)) /\
    (forall d x, d < D -> x < T -> on flag alpha = true ->
       qat (unm (kc_extr_old (s (t + 1)))) d x = qat (unm (kc_extr (s (t + 1)))) d x) /\
    (forall p x, p < P -> x < T -> nth (p * T + x) (unv (kc_intrinsic (s (t + 1)))) 0%Qc =
       (qat (unm (kc_oric2eq (s (t + 1)%nat))) p x + qat (unm (kc_project2eq (s (t + 1)%nat))) p x + qat R p x)%Qc)).
  { intros t'. destruct (HS t') as (Ft & Et & _). destruct (kc_step_sem T D P flag alpha W R reward caps t0 HW HR Hrew Hcaps Hpart Hfit Htwo (s t') t' Ft) as (st' & E' & _ & RR).
    fold nzs sizes inp in E'. rewrite Et in E'. injection E' as <-. exact RR. }
  set (K := fun t => unm (kc_t2k (s t))). set (EO := fun t => unm (kc_eq2oric (s t))).
  set (Dm := fun t => unm (kc_dummy (s (t + 1)))). set (X := fun t => unm (kc_extr (s (t + 1)))).
  set (TO := fun t => unv (kc_team2oric (s (t + 1)))). set (CE := fun t => unm (kc_oric2eq (s (t + 1)))).
  set (EP := fun t => unm (kc_eq2project (s (t + 1)))). set (PE := fun t => unm (kc_project2eq (s (t + 1)))).
  set (OT := fun t => unv (kc_oric2team (s (t + 1)))).
  assert (K0 : forall d x, d < D -> x < T -> qat (K 0) d x = if takes_part W d x then nth x reward 0%Qc else 0%Qc).
  { intros d x Hd Hx. unfold K. rewrite S0. apply Hstart; auto. }
  assert (EO0 : forall p x, qat (EO 0) p x = 0%Qc) by (intros; unfold EO; rewrite S0; apply qat_zeros).
  assert (SE : forall t, shape P T (EP t)).
  { intros t'. destruct (HS (t' + 1)) as ((A1 & A2 & A3 & A4 & A5 & A6 & A7 & A8 & A9 & _) & _). apply (finm_unm _ _ _ A9). }
  assert (XF : forall t d x, d < D -> x < T -> qat (X t) d x = filtered flag alpha (fun i => qat (Dm i) d x) t).
  { intros t' d x Hd Hx.
    apply (filtered_run flag alpha (fun i => qat (unm (kc_dummy (s (i + 1)))) d x)
      (fun i => qat (unm (kc_extr_old (s i))) d x) (fun i => qat (unm (kc_extr (s (i + 1)))) d x)).
    + intros i. apply ST; auto.
    + intros i On. apply ST; auto. }
  assert (Zero : forall t d x, d < D -> x < T -> takes_part W d x = false -> qat (K t) d x = 0%Qc).
  { intros t'. induction t' as [|t' IH]; intros d x Hd Hx Z.
    - rewrite K0, Z by auto. reflexivity.
    - destruct (ST t') as [(_ & _ & _ & _ & _ & _ & _ & Q) _]. unfold K. replace (S t') with (t' + 1) by lia.
      destruct (Q d x Hd Hx) as [_ Q2]. rewrite Q2; [apply IH; auto|].
      unfold takes_part in Z. apply negb_false_iff, Nat.eqb_eq in Z. exact Z. }
  assert (Run : forall t,
         (forall d ws cap, nth_error W d = Some ws -> nth_error caps d = Some cap ->
            (forall i x, nth_error (participants T ws) i = Some x ->
               minsum_message (within (map (fun x => nth x ws 0) (participants T ws)) cap)
                 (map (fun x => qat (K t) d x) (participants T ws)) i (Fin (qat (Dm t) d x))) /\
            (forall x, x < T -> takes_part W d x = false -> qat (Dm t) d x = 0%Qc)) /\
         (forall d x, d < D -> x < T ->
            qat (X t) d x = filtered flag alpha (fun i => qat (Dm i) d x) t) /\
         (forall x, x < T ->
            nth x (TO t) 0%Qc = (nth x reward 0 + qsum (map (fun d => qat (X t) d x) (seq 0 D)))%Qc) /\
         (forall p x, p < P -> x < T ->
            minsum_message coupled (nth x (TO t) 0%Qc :: col (EO t) P x) (S p) (Fin (qat (CE t) p x)) /\
            qat (EP t) p x = (qat (CE t) p x + qat R p x)%Qc /\
            minsum_message at_most_one (nth p (EP t) []) x (Fin (qat (PE t) p x)) /\
            qat (EO (t + 1)) p x = (qat (PE t) p x + qat R p x)%Qc) /\
         (forall x, x < T -> exists v,
            minsum_message coupled (nth x (TO t) 0%Qc :: col (EO (t + 1)) P x) 0 v /\
            Fin (nth x (OT t) 0%Qc) = nmin (zn 1000000) v) /\
         (forall d x, d < D -> x < T -> qat (K (t + 1)) d x =
            if takes_part W d x then
              (nth x reward 0 + nth x (OT t) 0 +
               qsum (map (fun d' => qat (X t) d' x)
                      (filter (fun d' => takes_part W d' x) (others d (seq 0 D)))))%Qc
            else 0%Qc)).
  { intros t'. destruct (ST t') as [(Q1 & Q2 & Q3 & Q4 & Q5 & Q6 & Q7 & Q8) _].
    split; [|split; [intros; apply XF; auto|split; [exact Q2|split; [|split; [exact Q7|]]]]].
    + intros d ws cap Gw Gc. assert (Hd : d < D) by (destruct HW as [<- _]; apply nth_error_Some; congruence).
      destruct (Q1 d Hd ws cap Gw Gc) as [B1 B2]. split; [exact B1|]. intros x Hx Z. apply B2; auto.
      unfold takes_part in Z. rewrite (nth_error_nth _ _ _ Gw) in Z. apply negb_false_iff, Nat.eqb_eq in Z. exact Z.
    + intros p x Hpp Hx. split; [apply Q3; auto|]. split; [apply Q4; auto|]. split; [apply Q5; auto|apply Q6; auto].
    + intros d x Hd Hx. destruct (Q8 d x Hd Hx) as [C1 C2]. destruct (takes_part W d x) eqn:Z.
      * apply C1. unfold takes_part in Z. apply negb_true_iff, Nat.eqb_neq in Z. exact Z.
      * unfold K. rewrite C2; [apply Zero; auto|]. unfold takes_part in Z. apply negb_false_iff, Nat.eqb_eq in Z. exact Z. }
  assert (R1 : forall t d x, d < D -> x < T -> (0 <= qat (Dm t) d x)%Qc) by (intros; eapply Dm_low; eauto).
  assert (R2 : forall t d x, d < D -> x < T -> (qat (Dm t) d x <= Y)%Qc) by (intros; eapply Dm_high; eauto).
  assert (R3 : forall t d x, d < D -> x < T -> (0 <= qat (X t) d x)%Qc) by (intros; eapply X_low; eauto).
  assert (R4 : forall t d x, d < D -> x < T -> (qat (X t) d x <= Y)%Qc) by (intros; eapply X_high; eauto).
  assert (R5 : forall t x, x < T -> (0 <= qsum (map (fun d => qat (X t) d x) (seq 0 D)))%Qc /\
     (qsum (map (fun d => qat (X t) d x) (seq 0 D)) <= qn D * Y)%Qc) by (intros; eapply X_sum; eauto).
  assert (R6 : forall t d x, d < D -> x < T -> (- (B + B) <= qat (K t) d x)%Qc) by (intros; eapply K_low; eauto).
  assert (R7 : forall t p x, p < P -> x < T -> (- B <= qat (CE t) p x)%Qc /\ (qat (CE t) p x <= B + qn D * Y)%Qc) by (intros; eapply CE_range; eauto).
  assert (R8 : forall t p x, p < P -> x < T -> (0 <= qat (PE t) p x)%Qc /\ (qat (PE t) p x <= B + B)%Qc) by (intros; eapply PE_range; eauto).
  assert (R9 : forall t p x, p < P -> x < T -> (- B <= qat (EO t) p x)%Qc /\ (qat (EO t) p x <= B + B + B)%Qc) by (intros; eapply EO_range; eauto).
  assert (R10 : forall t x, x < T -> (- B <= nth x (OT t) 0)%Qc /\ (nth x (OT t) 0 <= B + B + B)%Qc) by (intros; eapply OT_range; eauto).
  assert (Y0 : (0 <= Y)%Qc) by (apply Y_nonneg; exact HB).
  assert (DY : (0 <= qn D * Y)%Qc) by (rewrite <- (Qcmult_0_l Y); apply Qcmult_le_compat_r; [apply qn_nonneg|exact Y0]).
  assert (DY1 : D <> 0 -> (Y <= qn D * Y)%Qc).
  { intros N. rewrite <- (Qcmult_1_l Y) at 1. apply Qcmult_le_compat_r; [|exact Y0]. apply qn_pos; exact N. }
  assert (R11 : forall t d x, d < D -> x < T -> (qat (K t) d x <= lim)%Qc).
  { intros t' d x Hd Hx. destruct (Br x Hx). unfold lim. destruct t' as [|t']; [rewrite K0 by auto; destruct (takes_part W d x); qlra|].
    replace (S t') with (t' + 1) by lia. destruct (Run t') as (_ & _ & _ & _ & _ & A). rewrite A by auto.
    destruct (takes_part W d x); [|qlra]. destruct (R10 t' x Hx). destruct (R5 t' x Hx) as (_ & U).
    match goal with |- context [qsum ?l] => assert (Z : (qsum l <= qn D * Y)%Qc) end; [|qlra].
    eapply Qcle_trans; [apply qsum_part|]. 
    { intros e I. unfold others in I. apply filter_In in I as (I & _). apply in_seq in I. apply R3; lia. }
    eapply Qcle_trans; [apply qsum_part|exact U]. intros e I. apply in_seq in I. apply R3; lia. }
  intros E. destruct (HS t) as (F & _ & E'). rewrite E in E'. injection E' as ->.
  destruct F as (F1 & F2 & F3 & F4 & F5 & F6 & F7 & F8 & F9 & F10 & F11).
  assert (Hlim : (0 <= lim)%Qc) by (unfold lim; qlra).
  assert (T2 : Forall (Forall (fun v => match v with Fin q => (- lim <= q /\ q <= lim)%Qc | _ => True end)) (kc_t2k (s t))).
  { apply (mat_range D T); auto. intros d x Hd Hx. split; [|apply R11; auto]. pose proof (R6 t d x Hd Hx) as Q. unfold K in Q. unfold lim. qlra. }
  assert (T7 : Forall (Forall (fun v => match v with Fin q => (- lim <= q /\ q <= lim)%Qc | _ => True end)) (kc_eq2oric (s t))).
  { apply (mat_range P T); auto. intros p x Hp Hx. destruct (R9 t p x Hp Hx) as (Q1 & Q2). unfold EO in *. unfold lim. split; qlra. }
  unfold P_Float_Kc.kc_all. destruct t as [|t].
  { rewrite S0 in *. unfold kc_init in *. cbn [kc_t2k kc_dummy kc_extr kc_team2oric kc_oric2team kc_eq2oric kc_oric2eq kc_eq2project kc_project2eq kc_intrinsic] in *.
    assert (Q : (- lim <= 0)%Qc) by qlra.
    assert (ZM : forall r c, Forall (Forall (fun v => match v with Fin q => (- lim <= q /\ q <= lim)%Qc | _ => True end)) (zeros r c)).
    { intros r c. apply (mat_range r c); [apply finm_zeros|]. intros. rewrite qat_zeros. auto. }
    assert (ZV : forall r, Forall (fun v => match v with Fin q => (- lim <= q /\ q <= lim)%Qc | _ => True end) (repeat n0 r)).
    { intros r. apply Forall_forall. intros v I. apply repeat_spec in I as ->. cbn. auto. }
    repeat match goal with |- _ /\ _ => split end; first [exact T2 | exact T7 | apply ZM | apply ZV]. }
  replace (S t) with (t + 1) in * by lia.
  repeat match goal with |- _ /\ _ => split end; try first [exact T2 | exact T7].
  - apply (mat_range D T); auto. intros d x Hd Hx. pose proof (R1 t d x Hd Hx) as Q1. pose proof (R2 t d x Hd Hx) as Q2.
    unfold Dm in *. specialize (DY1 ltac:(lia)). unfold lim. split; qlra.
  - apply (mat_range D T); auto. intros d x Hd Hx. pose proof (R3 t d x Hd Hx) as Q1. pose proof (R4 t d x Hd Hx) as Q2.
    unfold X in *. specialize (DY1 ltac:(lia)). unfold lim. split; qlra.
  - apply (vec_range T); auto. intros x Hx. destruct (Run t) as (_ & _ & A & _). specialize (A x Hx). unfold TO in A. rewrite A.
    destruct (R5 t x Hx). destruct (Br x Hx). unfold lim. split; qlra.
  - apply (vec_range T); auto. intros x Hx. destruct (R10 t x Hx) as (Q1 & Q2). unfold OT in *. unfold lim. split; qlra.
  - apply (mat_range P T); auto. intros p x Hp Hx. destruct (R7 t p x Hp Hx) as (Q1 & Q2). unfold CE in *. unfold lim. split; qlra.
  - apply (mat_range P T); auto. intros p x Hp Hx. destruct (R7 t p x Hp Hx) as (Q1 & Q2). destruct (BR p x Hp Hx).
    destruct (Run t) as (_ & _ & _ & A & _). destruct (A p x Hp Hx) as (_ & A2 & _). unfold EP in A2. rewrite A2. unfold lim. split; qlra.
  - apply (mat_range P T); auto. intros p x Hp Hx. destruct (R8 t p x Hp Hx) as (Q1 & Q2). unfold PE in *. unfold lim. split; qlra.
  - apply (vec_range (P * T)); auto. intros k Hk. assert (HT : T <> 0) by (intros Z; rewrite Z, Nat.mul_0_r in Hk; lia).
    rewrite (Nat.div_mod k T HT), (Nat.mul_comm T). assert (Hx : k mod T < T) by (apply Nat.mod_upper_bound; auto).
    assert (Hpp : k / T < P) by (apply Nat.div_lt_upper_bound; lia).
    destruct (ST t) as (_ & _ & _ & A). rewrite (A _ _ Hpp Hx).
    destruct (R7 t _ _ Hpp Hx) as (Q1 & Q2). destruct (R8 t _ _ Hpp Hx) as (Q3 & Q4). destruct (BR _ _ Hpp Hx). unfold CE, PE in *. unfold lim. split; qlra.
Qed.
End States.
