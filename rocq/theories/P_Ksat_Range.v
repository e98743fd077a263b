(** * Ranges of K-SAT messages in terms of the occurrences of literals. *)
From Verif Require Import Arr ArrFacts MinSum MinSumFacts NumFacts P_Tsp_Constraints M_Ksat P_Ksat P_Runs SpecRun.
From Verif Require Import P_Schedule SpecLiterals P_Float P_Kc_Range.
From Verif Require Import M_InOut P_InOut M_Runs M_Filter P_Filter.
From Verif Require P_Ksat_Limit P_Ksat_Run.
From Verif Require Import Spec Num.
Local Open Scope nat_scope.

(** what a clause can do to a variable: push it to its literal, by at most the cheapest other literal *)
Lemma clause_push sg m j s d U : length sg = length m -> 2 <= length m -> nth_error sg j = Some s ->
  minsum_message (clause_ok sg) m j (Fin d) -> (0 <= U)%Qc ->
  (forall i s' v, nth_error sg i = Some s' -> nth_error m i = Some v -> ((if s' then v else - v) <= U)%Qc) ->
  if s then (- U <= d /\ d <= 0)%Qc else (0 <= d /\ d <= U)%Qc.
Proof.
  intros L L2 Hs M HU H.
  pose proof (minsum_message_unique _ _ _ _ _ M (clause_message sg m j s L Hs)) as E.
  set (cs := lit_costs sg m) in *.
  assert (Lc : length cs = length m) by (apply lit_costs_length; auto).
  assert (Hj : j < length cs) by (rewrite Lc, <- L; apply nth_error_Some; congruence).
  assert (Small : forall q, In q cs -> (q <= U)%Qc).
  { intros q I. apply In_nth_error in I as [i Gi].
    assert (Hi : i < length m) by (rewrite <- Lc; apply nth_error_Some; congruence).
    destruct (nth_error sg i) as [s'|] eqn:Gs; [|apply nth_error_None in Gs; lia].
    destruct (nth_error m i) as [v|] eqn:Gm; [|apply nth_error_None in Gm; lia].
    pose proof (lit_costs_get _ _ _ _ _ Gs Gm) as G. unfold get in G. fold cs in G. rewrite Gi in G. injection G as ->.
    specialize (H i s' v Gs Gm). destruct s'; unfold sgn; qlra. }
  set (r := remove_at j cs) in *.
  assert (Nr : r <> []).
  { intros X. pose proof (remove_at_length j cs Hj) as LL. fold r in LL. rewrite X in LL. cbn in LL. lia. }
  destruct (nmins_Fin r Nr) as (q & Eq & Iq).
  assert (Sq : (q <= U)%Qc).
  { apply Small. unfold r in Iq. rewrite remove_at_split in Iq. apply in_app_or in Iq as [I|I].
    - rewrite <- (firstn_skipn j cs). apply in_or_app; auto.
    - rewrite <- (firstn_skipn (S j) cs). apply in_or_app; auto. }
  unfold clause_val, alo in E. fold r in E. rewrite Eq in E. unfold nmax, n0, nlt in E.
  destruct (qltb_spec q 0) as [Q|Q]; cbn [nadd nsub nopp nmul] in E;
    injection E as ->; destruct s; unfold sgn; split; qlra.
Qed.

Lemma filtered_opp flag a d t : filtered flag a (fun i => (- d i)%Qc) t = (- filtered flag a d t)%Qc.
Proof.
  unfold filtered. destruct (flag && negb _); [|reflexivity].
  induction (seq 0 (t + 1)) as [|i l IH]; [reflexivity|]. cbn [map]. rewrite !P_Ksat.qsum_cons, IH. ring.
Qed.

Lemma filtered_ext flag a d d' t : (forall i, i <= t -> d i = d' i) -> filtered flag a d t = filtered flag a d' t.
Proof.
  intros H. unfold filtered. destruct (flag && negb _); [|apply H; lia]. f_equal. apply map_ext_in. intros i I.
  apply in_seq in I. rewrite H by lia. reflexivity.
Qed.
Lemma filtered_between flag a (d : nat -> Qc) (t : nat) c : (flag = true -> 0 <= a /\ a <= 1)%Qc -> (0 <= c)%Qc -> (forall i, i <= t -> (0 <= d i /\ d i <= c)%Qc) ->
  (0 <= filtered flag a d t /\ filtered flag a d t <= c)%Qc.
Proof.
  intros Ha Hc H. rewrite (filtered_ext flag a d (fun i => if i <=? t then d i else 0%Qc) t).
  2:{ intros i Hi. destruct (Nat.leb_spec i t); [reflexivity|lia]. }
  destruct (filtered_range flag a (fun i => if i <=? t then d i else 0%Qc) c Ha) with (t := t) as (X & Y).
  - intros i. destruct (Nat.leb_spec i t); [apply H; auto|qlra].
  - split; auto. apply Y. intros i Hi. destruct (Nat.leb_spec i t); [apply H; auto|lia].
Qed.

Lemma sum_above {A} (f : A -> Qc) (q : A -> bool) l U : (0 <= U)%Qc -> (forall a, In a l -> f a <= if q a then U else 0)%Qc ->
  (qsum (map f l) <= qn (length (filter q l)) * U)%Qc.
Proof.
  intros HU. induction l as [|a l IH]; intros H; cbn [map filter].
  - change (qn (length [])) with 0%Qc. unfold qsum; cbn [fold_right]. qlra.
  - rewrite P_Ksat.qsum_cons. specialize (IH (fun b I => H b (or_intror I))). specialize (H a (or_introl eq_refl)).
    destruct (q a); [|qlra]. cbn [length]. unfold qn in *. rewrite Nat2Z.inj_succ, <- Z.add_1_r, zq_add.
    change (zq 1) with 1%Qc. qlra.
Qed.
Lemma sum_below {A} (f : A -> Qc) (q : A -> bool) l U : (0 <= U)%Qc -> (forall a, In a l -> (if q a then - U else 0) <= f a)%Qc ->
  (- (qn (length (filter q l)) * U) <= qsum (map f l))%Qc.
Proof.
  intros HU H. pose proof (sum_above (fun a => - f a)%Qc q l U HU) as X.
  assert (E : qsum (map (fun a => - f a)%Qc l) = (- qsum (map f l))%Qc).
  { clear. induction l as [|a l IH]; [reflexivity|]. cbn [map]. rewrite !P_Ksat.qsum_cons, IH. ring. }
  rewrite E in X. assert (Y : (- qsum (map f l) <= qn (length (filter q l)) * U)%Qc); [|qlra].
  apply X. intros a I. specialize (H a I). destruct (q a); qlra.
Qed.

Lemma powers_S d n : powers d (S n) = 1 + d * powers d n.
Proof.
  unfold powers. cbn [seq map]. change (list_sum (d ^ 0 :: map (fun i => d ^ i) (seq 1 n))) with (1 + list_sum (map (fun i => d ^ i) (seq 1 n))).
  f_equal. rewrite <- seq_shift, map_map. induction (seq 0 n) as [|i l IH]; cbn [map list_sum fold_right]; [lia|].
  unfold list_sum in *. cbn [fold_right]. rewrite IH. cbn [Nat.pow]. lia.
Qed.
Lemma powers_mono d n m : n <= m -> powers d n <= powers d m.
Proof. intros H. unfold powers. replace m with (n + (m - n)) by lia. rewrite seq_app, map_app, list_sum_app. lia. Qed.
Lemma qn_mono n m : n <= m -> (qn n <= qn m)%Qc.
Proof. intros H. unfold qn, Qcle, zq, Q2Qc. cbn [this]. rewrite !Qred_correct. unfold Qle. cbn. lia. Qed.
Lemma qn_add n m : qn (n + m) = (qn n + qn m)%Qc.
Proof. unfold qn. rewrite Nat2Z.inj_add. apply zq_add. Qed.
Lemma qn_mul n m : qn (n * m) = (qn n * qn m)%Qc.
Proof. unfold qn. rewrite Nat2Z.inj_mul. apply zq_mul. Qed.
Lemma qn_0 : qn 0 = 0%Qc. Proof. reflexivity. Qed.
Lemma qn_1 : qn 1 = 1%Qc. Proof. reflexivity. Qed.
Lemma qn_nonneg n : (0 <= qn n)%Qc.
Proof. rewrite <- qn_0. apply qn_mono; lia. Qed.

Section Range.
Variables (nv nc k d : nat) (metrics : list Qc) (conx : list (list nat)) (types : list (list Z)).
Variables (V0 : list (list Qc)) (varconx : list (list nat)) (flag : bool) (alpha B : Qc).
Hypothesis Hk : 2 <= k.
Hypothesis Hc : length conx = nc.
Hypothesis Ht : length types = nc.
Hypothesis Hwf : forall c cx tys, nth_error conx c = Some cx -> nth_error types c = Some tys -> clause_wf nv k cx tys.
Hypothesis Hv : length varconx = nv.
Hypothesis Hin : forall x l, nth_error varconx x = Some l -> NoDup l /\ Forall (fun c => c < nc) l.
Variables V D M : nat -> list (list Qc).
Hypothesis E0 : V 0 = V0.
Hypothesis HD : forall t c cx tys, nth_error conx c = Some cx -> nth_error types c = Some tys ->
  (forall j x, nth_error cx j = Some x ->
     minsum_message (clause_ok (signs tys)) (map (fun x => qat (V t) c x) cx) j (Fin (qat (D t) c x))) /\
  (forall x, x < nv -> ~ In x cx -> qat (D t) c x = 0%Qc).
Hypothesis HM : forall t c x, c < nc -> x < nv -> qat (M t) c x = filtered flag alpha (fun i => qat (D i) c x) t.
Hypothesis HV : forall t x l c, nth_error varconx x = Some l -> In c l ->
  qat (V (t + 1)) c x = (nth x metrics 0 + qsum (map (fun c => qat (M t) c x) (others c l)))%Qc.
Hypothesis HV0 : forall t c x l, c < nc -> nth_error varconx x = Some l -> ~ In c l -> qat (V (t + 1)) c x = 0%Qc.
Hypothesis HB : (0 <= B)%Qc.
Hypothesis Hmet : forall x, x < nv -> (- B <= nth x metrics 0 /\ nth x metrics 0 <= B)%Qc.
Hypothesis Hst : forall c x, c < nc -> x < nv -> (- B <= qat V0 c x /\ qat V0 c x <= B)%Qc.
Hypothesis Hflag : flag = true -> (0 <= alpha /\ alpha <= 1)%Qc.
Hypothesis Hd : forall x s, x < nv -> literal_count conx types x s <= d.
Let U (t : nat) : Qc := (qn (powers d (t + 1)) * B)%Qc.

Lemma U_pos t : (0 <= U t)%Qc.
Proof. unfold U. pose proof (Qcmult_le_compat_r 0 (qn (powers d (t + 1))) B (qn_nonneg _) HB). qlra. Qed.
Lemma U_mono i t : i <= t -> (U i <= U t)%Qc.
Proof. intros H. apply Qcmult_le_compat_r; auto. apply qn_mono, powers_mono. lia. Qed.
Lemma U_0 : U 0 = B.
Proof. unfold U, powers. cbn. rewrite qn_1. ring. Qed.
Lemma U_S t : U (t + 1) = (B + qn d * U t)%Qc.
Proof. unfold U. replace (t + 1 + 1) with (S (t + 1)) by lia. rewrite powers_S, qn_add, qn_mul, qn_1. ring. Qed.

Definition V_in t := forall c x, c < nc -> x < nv -> (- U t <= qat (V t) c x /\ qat (V t) c x <= U t)%Qc.

Lemma clause_at c : c < nc -> exists cx tys, nth_error conx c = Some cx /\ nth_error types c = Some tys /\ clause_wf nv k cx tys.
Proof.
  intros H. destruct (nth_error conx c) as [cx|] eqn:G1; [|apply nth_error_None in G1; lia].
  destruct (nth_error types c) as [tys|] eqn:G2; [|apply nth_error_None in G2; lia]. exists cx, tys. eauto.
Qed.
Lemma has_position c cx tys j x s : nth_error conx c = Some cx -> nth_error types c = Some tys -> nth_error cx j = Some x ->
  nth_error (signs tys) j = Some s -> has_literal conx types x s c = true.
Proof.
  intros G1 G2 Gx Gs. unfold has_literal. rewrite (nth_error_nth _ _ _ G1), (nth_error_nth _ _ _ G2).
  apply existsb_exists. exists (x, s). split; [|cbn; rewrite Nat.eqb_refl, Bool.eqb_reflx; reflexivity].
  clear - Gx Gs. revert j Gx Gs. generalize (signs tys). induction cx as [|y cx IH]; intros [|b l] [|j] Gx Gs; cbn in *; try discriminate.
  - left. congruence.
  - right. eauto.
Qed.
(** the sign of the messages of a clause does not change *)
Lemma D_push c x : c < nc -> x < nv ->
  (forall t, qat (D t) c x = 0%Qc) \/
  (has_literal conx types x true c = true /\ forall t, V_in t -> (- U t <= qat (D t) c x /\ qat (D t) c x <= 0)%Qc) \/
  (has_literal conx types x false c = true /\ forall t, V_in t -> (0 <= qat (D t) c x /\ qat (D t) c x <= U t)%Qc).
Proof.
  intros Hcl Hx. destruct (clause_at c Hcl) as (cx & tys & G1 & G2 & (L1 & L2 & ND & FR & _)).
  destruct (in_dec Nat.eq_dec x cx) as [I|I]; [|left; intros t; apply (HD t c cx tys G1 G2); auto].
  right. apply In_nth_error in I as [j Gj].
  assert (Hj : j < k) by (rewrite <- L1; apply nth_error_Some; congruence).
  destruct (nth_error (signs tys) j) as [s|] eqn:Gs.
  2:{ apply nth_error_None in Gs. unfold signs in Gs. rewrite map_length in Gs. lia. }
  pose proof (has_position c cx tys j x s G1 G2 Gj Gs) as HL.
  assert (X : forall t, V_in t -> if s then (- U t <= qat (D t) c x /\ qat (D t) c x <= 0)%Qc else (0 <= qat (D t) c x /\ qat (D t) c x <= U t)%Qc).
  { intros t Vt. destruct (HD t c cx tys G1 G2) as [Q _].
    refine (clause_push (signs tys) _ j s _ (U t) _ _ Gs (Q j x Gj) (U_pos t) _).
    - unfold signs. rewrite !map_length. lia.
    - rewrite map_length. lia.
    - intros i s' v Gi Gv. rewrite nth_error_map in Gv. destruct (nth_error cx i) as [y|] eqn:Gy; [|discriminate].
      injection Gv as <-. assert (Hy : y < nv) by (rewrite Forall_forall in FR; apply FR; eapply nth_error_In; eauto).
      destruct (Vt c y Hcl Hy). destruct s'; qlra. }
  destruct s; [left|right]; auto.
Qed.
Lemma M_push t c x : c < nc -> x < nv -> (forall i, i <= t -> V_in i) ->
  (qat (M t) c x <= if has_literal conx types x false c then U t else 0)%Qc /\
  ((if has_literal conx types x true c then - U t else 0) <= qat (M t) c x)%Qc.
Proof.
  intros Hcl Hx Vi. rewrite HM by auto. pose proof (U_pos t) as UP.
  destruct (D_push c x Hcl Hx) as [Z|[(HL & Q)|(HL & Q)]].
  - rewrite P_Ksat_Limit.filtered_none by auto. destruct (has_literal _ _ _ true _), (has_literal _ _ _ false _); split; qlra.
  - assert (X : (0 <= - filtered flag alpha (fun i => qat (D i) c x) t /\ - filtered flag alpha (fun i => qat (D i) c x) t <= U t)%Qc).
    { rewrite <- filtered_opp. apply filtered_between; auto. intros i Hi. destruct (Q i (Vi i Hi)). pose proof (U_mono i t Hi). split; qlra. }
    rewrite HL. destruct (has_literal _ _ _ false _); split; qlra.
  - assert (X : (0 <= filtered flag alpha (fun i => qat (D i) c x) t /\ filtered flag alpha (fun i => qat (D i) c x) t <= U t)%Qc).
    { apply filtered_between; auto. intros i Hi. destruct (Q i (Vi i Hi)). pose proof (U_mono i t Hi). split; qlra. }
    rewrite HL. destruct (has_literal _ _ _ true _); split; qlra.
Qed.
(** the sum of the messages of some clauses *)
Lemma sum_push t x l : x < nv -> (forall i, i <= t -> V_in i) -> NoDup l -> (forall c, In c l -> c < nc) ->
  (- (qn (literal_count conx types x true) * U t) <= qsum (map (fun c => qat (M t) c x) l) /\
   qsum (map (fun c => qat (M t) c x) l) <= qn (literal_count conx types x false) * U t)%Qc.
Proof.
  intros Hx Vi ND Hl. pose proof (U_pos t) as UP.
  assert (Le : forall s, (qn (length (filter (has_literal conx types x s) l)) * U t <= qn (literal_count conx types x s) * U t)%Qc).
  { intros s. apply Qcmult_le_compat_r; auto. apply qn_mono. unfold literal_count. apply NoDup_incl_length.
    - apply NoDup_filter; auto.
    - intros c I. apply filter_In in I as [I1 I2]. apply filter_In. split; auto. apply in_seq. specialize (Hl c I1). lia. }
  pose proof (Le true) as L1. pose proof (Le false) as L2.
  pose proof (sum_above (fun c => qat (M t) c x) (has_literal conx types x false) l (U t) UP) as A1.
  pose proof (sum_below (fun c => qat (M t) c x) (has_literal conx types x true) l (U t) UP) as A2.
  assert (B1 : (qsum (map (fun c => qat (M t) c x) l) <= qn (length (filter (has_literal conx types x false) l)) * U t)%Qc).
  { apply A1. intros c I. apply M_push; auto. }
  assert (B2 : (- (qn (length (filter (has_literal conx types x true) l)) * U t) <= qsum (map (fun c => qat (M t) c x) l))%Qc).
  { apply A2. intros c I. apply M_push; auto. }
  split; qlra.
Qed.
Lemma V_range t : V_in t.
Proof.
  induction t as [t IH] using lt_wf_ind. destruct t as [|t].
  - intros c x Hcl Hx. rewrite E0, U_0. auto.
  - intros c x Hcl Hx. replace (S t) with (t + 1) by lia. rewrite U_S. pose proof (U_pos t) as UP.
    assert (DU : (0 <= qn d * U t)%Qc).
    { pose proof (Qcmult_le_compat_r 0 (qn d) (U t) (qn_nonneg _) UP). qlra. }
    destruct (nth_error varconx x) as [l|] eqn:G; [|apply nth_error_None in G; lia].
    destruct (in_dec Nat.eq_dec c l) as [I|I].
    + rewrite (HV t x l c G I). destruct (Hin x l G) as [ND FR]. rewrite Forall_forall in FR.
      destruct (sum_push t x (others c l) Hx) as [X1 X2].
      * intros i Hi. apply IH. lia.
      * apply NoDup_filter; auto.
      * intros c' I'. apply filter_In in I' as [I' _]. auto.
      * destruct (Hmet x Hx) as [M1 M2].
        assert (Le : forall s, (qn (literal_count conx types x s) * U t <= qn d * U t)%Qc).
        { intros s. apply Qcmult_le_compat_r; auto. apply qn_mono. auto. }
        pose proof (Le true). pose proof (Le false). split; qlra.
    + rewrite (HV0 t c x l) by auto. split; qlra.
Qed.
Lemma total_range t x : x < nv ->
  (- (qn (literal_count conx types x true) * U t) <= qsum (map (fun c => qat (M t) c x) (seq 0 nc)) /\
   qsum (map (fun c => qat (M t) c x) (seq 0 nc)) <= qn (literal_count conx types x false) * U t)%Qc.
Proof.
  intros Hx. apply sum_push; auto using seq_NoDup.
  - intros i _. apply V_range.
  - intros c I. apply in_seq in I. lia.
Qed.
End Range.

(** the messages of variables in the states of a run *)
Lemma ksat_var_states nv nc k flag alpha conx types used metrics varconx (V0 : list (list Qc)) :
  2 <= k -> length conx = nc -> length types = nc ->
  (forall c cx tys, get conx c = Some cx -> get types c = Some tys -> clause_wf nv k cx tys) ->
  length metrics = nv -> length varconx = nv -> Forall (fun x => x < nv) used ->
  (forall x l, get varconx x = Some l -> NoDup l /\ Forall (fun c => c < nc) l) -> shape nc nv V0 ->
  let inp := {| ks_used := used; ks_metrics := map Fin metrics; ks_conx := conx; ks_type := types;
                ks_var2clause := inj V0; ks_varconx := varconx |} in
  exists V D M : nat -> list (list Qc), V 0 = V0 /\
    (forall t, P_Ksat_Run.clause_step nv conx types (V t) (D t) /\
       (forall c x, c < nc -> x < nv -> qat (M t) c x = filtered flag alpha (fun i => qat (D i) c x) t) /\
       P_Ksat_Run.variable_step nv nc used metrics varconx (M t) (V (t + 1))) /\
    forall t st, for_up 0 t (ksat_init nv nc (inj V0)) (ksat_step flag (Fin alpha) nv nc k inp) = Some st -> kst_var st = inj (V t) /\ shape nc nv (V t).
Proof.
  intros Hk Hc Ht Hwf Hm Hv Hu Hconn SV inp.
  assert (SS : forall st iter, ksat_fin nv nc st -> exists st', ksat_step flag (Fin alpha) nv nc k inp st iter = Some st' /\ ksat_fin nv nc st' /\
    P_Ksat_Run.clause_step nv conx types (unm (kst_var st)) (unm (kst_dummy st')) /\
    (forall c x, c < nc -> x < nv -> qat (unm (kst_msg st')) c x =
       blend1 flag alpha iter (qat (unm (kst_dummy st')) c x) (qat (unm (kst_old st)) c x)) /\
    (forall c x, c < nc -> x < nv -> on flag alpha = true ->
       qat (unm (kst_old st')) c x = qat (unm (kst_msg st')) c x) /\
    P_Ksat_Run.variable_step nv nc used metrics varconx (unm (kst_msg st')) (unm (kst_var st'))).
  { intros st iter F. apply P_Ksat_Run.ksat_step_sem; auto. }
  destruct (run_seq (ksat_init nv nc (inj V0)) (ksat_step flag (Fin alpha) nv nc k inp) (ksat_fin nv nc)) as (s & S0 & HS).
  { split; [|split; [|split]]; cbn; auto using finm_zeros. exists V0; auto. }
  { intros st i F. destruct (SS st i F) as (st' & E & F' & _). eauto. }
  exists (fun t => unm (kst_var (s t))), (fun t => unm (kst_dummy (s (t + 1)))), (fun t => unm (kst_msg (s (t + 1)))).
  split; [rewrite S0; cbn; apply unm_inj|].
  assert (ST : forall t, P_Ksat_Run.clause_step nv conx types (unm (kst_var (s t))) (unm (kst_dummy (s (t + 1)))) /\
    (forall c x, c < nc -> x < nv -> qat (unm (kst_msg (s (t + 1)))) c x =
       blend1 flag alpha t (qat (unm (kst_dummy (s (t + 1)))) c x) (qat (unm (kst_old (s t))) c x)) /\
    (forall c x, c < nc -> x < nv -> on flag alpha = true ->
       qat (unm (kst_old (s (t + 1)))) c x = qat (unm (kst_msg (s (t + 1)))) c x) /\
    P_Ksat_Run.variable_step nv nc used metrics varconx (unm (kst_msg (s (t + 1)))) (unm (kst_var (s (t + 1))))).
  { intros t. destruct (HS t) as (Ft & Et & _). destruct (SS (s t) t Ft) as (st' & E' & _ & R).
    rewrite Et in E'. injection E' as <-. exact R. }
  split.
  - intros t. split; [apply ST|]. split; [|apply ST]. intros c x Hcl Hx.
    apply (filtered_run flag alpha (fun i => qat (unm (kst_dummy (s (i + 1)))) c x)
      (fun i => qat (unm (kst_old (s i))) c x) (fun i => qat (unm (kst_msg (s (i + 1)))) c x)).
    + intros i. apply ST; auto.
    + intros i On. apply ST; auto.
  - intros t st E. destruct (HS t) as ((FV & _) & _ & E'). rewrite E in E'. injection E' as ->. apply finm_unm. exact FV.
Qed.
