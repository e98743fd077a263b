(** * Rounded TSP runs that need no rounding. *)
From Verif Require Import Num NumFacts Arr ArrFacts SpecRound M_Equality M_Filter M_InOut M_Runs
  M_Tsp_Constraints M_Tsp_Loops M_Tsp_Run M_Tsp_Py M_Float P_Param P_Float.
Local Open Scope nat_scope.

(** Parameters of a run without filtering *)
Definition tsp_unfiltered (p : tsp_params) : Prop := unfiltered (p_filt p) (p_alpha p).

(** Messages of one round at its start: graphical_model.hpp:450-467 *)
Definition start_round (p : tsp_params) (st : tsp_state) : option tsp_msgs :=
  let m := t_msgs st in
  e2d <- (if p_reset p then reset_messages (tsp_edges (p_in p)) (tsp_cost_matrix (p_in p)) (m_e2d m)
          else Some (m_e2d m)) ;;
  Some {| m_e2d := e2d; m_deg_dummy := m_deg_dummy m; m_deg_old := m_deg_old m; m_deg := m_deg m;
          m_sub_dummy := m_sub_dummy m;
          m_sub_old := m_sub_old m ++ zeros (length (a_deltas (t_an st))) (p_e p);
          m_sub := m_sub m |}.

(** Some property of every number in the messages between edges and constraints *)
Definition messages (P : num -> Prop) (m : tsp_msgs) : Prop :=
  mat P (m_e2d m) /\ mat P (m_deg_dummy m) /\ mat P (m_deg m) /\ mat P (m_sub_dummy m) /\ mat P (m_sub m).

Section Tsp.
Variables (u : Qc) (N : Z) (rnd : Qc -> num).
Hypothesis Hrnd : exact_upto u N rnd.
Hypothesis Hu : (0 < u)%Qc.
Notation on := (on u).

(** at most [B] units *)
Definition small (B : Z) (v : num) : Prop :=
  match v with Fin q => (- (zq B * u) <= q /\ q <= zq B * u)%Qc | _ => True end.
Lemma zq_le a b : (zq a <= zq b)%Qc -> (a <= b)%Z.
Proof.
  unfold zq, Qcle, Q2Qc. cbn [this]. rewrite !Qred_correct. unfold Qle. cbn. lia.
Qed.
Lemma on_small A B v : on A v -> small B v -> on B v.
Proof.
  destruct v as [q| | |]; cbn; auto. intros (z & -> & _) [H1 H2]. exists z. split; [reflexivity|].
  assert (z <= B)%Z.
  { apply zq_le. apply Qcmult_lt_0_le_reg_r with u; assumption. }
  assert (- z <= B)%Z.
  { apply zq_le. apply Qcmult_lt_0_le_reg_r with u; [assumption|]. rewrite zq_opp.
    replace (- zq z * u)%Qc with (- (zq z * u))%Qc by ring.
    replace (zq B * u)%Qc with (- (- (zq B * u)))%Qc by ring. apply Qcopp_le_compat. exact H1. }
  lia.
Qed.
Lemma mat_on_small A B m : mat (on A) m -> mat (small B) m -> mat (on B) m.
Proof.
  intros H1 H2. apply Forall_forall. intros r Hr. apply Forall_forall. intros v Hv.
  eapply on_small.
  - exact (proj1 (Forall_forall _ _) (proj1 (Forall_forall _ _) H1 r Hr) v Hv).
  - exact (proj1 (Forall_forall _ _) (proj1 (Forall_forall _ _) H2 r Hr) v Hv).
Qed.

Variable p : tsp_params.
Variable C : Z.
Hypothesis Hfilt : tsp_unfiltered p.
Hypothesis HC : (0 <= C)%Z.
Definition inputs_on : Prop :=
  Forall (on C) (tsp_cost_edge (p_in p)) /\ mat (on C) (tsp_cost_matrix (p_in p))
  /\ mat (on C) (tsp_degree_cost (p_in p)) /\ mat (on C) (tsp_edge2degree (p_in p)).
Hypothesis Hin : inputs_on.

Definition shape (m : tsp_msgs) : Prop :=
  length (m_deg m) = p_e p /\ Forall (fun r => length r = p_n p) (m_deg m)
  /\ Forall (fun r => length r = p_e p) (m_sub m).
Definition held (B : Z) (m : tsp_msgs) : Prop := messages (on B) m /\ shape m.
Definition sized (s : tsp_sol) : Prop := length (r_extr s) = p_e p /\ length (r_intr s) = p_e p.

Lemma held_mono A B m : (A <= B)%Z -> held A m -> held B m.
Proof.
  intros L ((H1 & H2 & H3 & H4 & H5) & H6). split; [|exact H6].
  repeat split; eapply mat_mono; eauto.
Qed.
Lemma held_small A B m : held A m -> messages (small B) m -> held B m.
Proof.
  intros ((H1 & H2 & H3 & H4 & H5) & H6) (K1 & K2 & K3 & K4 & K5). split; [|exact H6].
  repeat split; eapply mat_on_small; eauto.
Qed.

Lemma relaxed_step_same B m iter : held B m -> (0 <= B)%Z -> (B + C <= N)%Z ->
  same (held (B + C)) (relaxed_step_f rnd p m iter) (relaxed_step p m iter).
Proof.
  intros ((H1 & H2 & H3 & H4 & H5) & S1 & S2 & S3) HB L. unfold relaxed_step_f, relaxed_step.
  destruct Hin as (I1 & I2 & I3 & I4).
  eapply same_bind; [apply degree_on with (u := u) (B := B); assumption|]. intros dummy Hd.
  eapply same_bind; [apply (filtering_on u) with (B := B) (k := p_n p); assumption|].
  intros [deg old] (D1 & D2 & D3 & D4). cbn [fst snd] in *.
  eapply same_bind.
  - apply edge_relaxed_same with (u := u) (N := N) (D := B) (C := C) (E := (B + C)%Z); auto; try lia.
    eapply mat_mono; [|exact H1]. lia.
  - intros e2d He. apply same_ret; [reflexivity|]. repeat split; cbn; auto;
      try (eapply mat_mono; [|eassumption]; lia). congruence.
Qed.

Definition grown (K : nat) (B : Z) : Z := ((Z.of_nat K + 1) * to_subtour K B C + B + C)%Z.
Lemma grown_ge K B : (0 <= B)%Z ->
  (to_subtour K B C <= grown K B /\ B <= grown K B /\ C <= grown K B
   /\ Z.of_nat K * to_subtour K B C + B + C <= grown K B /\ 0 <= to_subtour K B C)%Z.
Proof. intros HB. unfold grown, to_subtour. assert (0 <= Z.of_nat K * B)%Z by nia. nia. Qed.
Lemma augmented_step_same B K deltas m iter : held B m -> length (m_sub m) <= K ->
  (0 <= B)%Z -> (grown K B <= N)%Z ->
  same (fun m' => held (grown K B) m' /\ length (m_sub m') <= K)
    (augmented_step_f rnd p deltas m iter) (augmented_step p deltas m iter).
Proof.
  intros ((H1 & H2 & H3 & H4 & H5) & S1 & S2 & S3) HK HB L. unfold augmented_step_f, augmented_step.
  destruct Hin as (I1 & I2 & I3 & I4). destruct (grown_ge K B HB) as (G1 & G2 & G3 & G4 & G5).
  eapply same_bind; [apply degree_on with (u := u) (B := B); assumption|]. intros dummy Hd.
  eapply same_bind; [apply (filtering_on u) with (B := B) (k := p_n p); assumption|].
  intros [deg old] (D1 & D2 & D3 & D4). cbn [fst snd] in *.
  eapply same_bind.
  { apply edge_to_subtour_same with (u := u) (N := N) (B := B) (C := C) (K := K); auto. lia. }
  intros e2s He2s.
  assert (GB : (B <= to_subtour K B C)%Z) by (unfold to_subtour; nia).
  eapply same_bind.
  { apply subtour_on with (u := u) (B := to_subtour K B C); [lia | exact He2s |].
    eapply mat_mono; [exact GB | exact H4]. }
  intros sd Hsd.
  eapply same_bind.
  { apply (filtering_on u) with (B := to_subtour K B C) (k := p_e p); auto.
    eapply mat_mono; [exact GB | exact H5]. }
  intros [sub sold] (T1 & T2 & T3 & T4). cbn [fst snd] in *.
  eapply same_bind.
  { apply edge_augmented_same with (u := u) (N := N) (B := B) (S := to_subtour K B C) (C := C) (K := K)
      (E := grown K B); auto; try lia. eapply mat_mono; [exact G2 | exact H1]. }
  intros e2d He. apply same_ret; [reflexivity|].
  split; [|cbn; lia]. repeat split; cbn; auto;
    try (eapply mat_mono; [|eassumption]; lia). congruence.
Qed.

(** the steps of a loop whose exact states stay small *)
Lemma steps_same {M} (f g : M -> nat -> option M) (J W : M -> Prop) m0 : forall n,
  J m0 ->
  (forall t m, t < n -> J m -> same W (f m t) (g m t)) ->
  (forall t m, t <= n -> for_up 0 t m0 g = Some m -> W m -> J m) ->
  same J (for_up 0 n m0 f) (for_up 0 n m0 g).
Proof.
  induction n as [|n IH]; intros H0 Hs Hw.
  - apply same_ret; [reflexivity | exact H0].
  - assert (K : same J (for_up 0 n m0 f) (for_up 0 n m0 g)).
    { apply IH; [exact H0 | intros t m Ht; apply Hs; lia | intros t m Ht; apply Hw; lia]. }
    destruct K as [E F].
    rewrite !for_up_S, E. destruct (for_up 0 n m0 g) as [m|] eqn:R; [|apply same_none]. cbn [bind].
    destruct (Hs n m ltac:(lia) (F m eq_refl)) as [E2 F2]. split; [exact E2|]. intros m' R'.
    apply (Hw (S n) m' ltac:(lia)); [rewrite for_up_S, R; exact R' | exact (F2 _ R')].
Qed.

(** ** Decisions at the end of a round *)
Lemma decide_same R extr intr k : Forall (on R) extr -> length extr = p_e p -> length intr = p_e p ->
  (R + C <= N)%Z -> p_e p <= k -> (Z.of_nat k * C <= N)%Z ->
  intrinsic_output_f rnd extr (tsp_cost_edge (p_in p)) intr = intrinsic_output extr (tsp_cost_edge (p_in p)) intr
  /\ forall i, intrinsic_output extr (tsp_cost_edge (p_in p)) intr = Some i ->
     length i = p_e p
     /\ selection_cost_f rnd (hard_decision (p_thr p) i) (tsp_cost_edge (p_in p))
        = selection_cost (hard_decision (p_thr p) i) (tsp_cost_edge (p_in p)).
Proof.
  intros He L1 L2 LN Hk LC. destruct Hin as (I1 & _).
  destruct (plus_same_full u N rnd Hrnd R C (R + C)%Z extr (tsp_cost_edge (p_in p)) intr He I1) as [E F];
    [lia|lia|lia|]. split; [exact E|]. intros i Ri. destruct (F i Ri) as [_ Li].
  split; [lia|]. apply (selection_cost_same u N rnd Hrnd C k); auto.
  unfold hard_decision. rewrite map_length. lia.
Qed.

Definition state_ok (B : Z) (st : tsp_state) : Prop := held B (t_msgs st) /\ sized (t_sol st).
Lemma relaxed_same B : (Z.of_nat (p_iters p) + 1 <= B)%Z ->
  (Z.of_nat (p_n p) * (B * C) + C <= N)%Z -> (B * C <= N)%Z -> (Z.of_nat (p_e p) * C <= N)%Z ->
  same (state_ok (B * C)) (iterate_relaxed_f rnd p (tsp_init p)) (iterate_relaxed p (tsp_init p)).
Proof.
  intros HB L1 L2 L3. unfold iterate_relaxed_f, iterate_relaxed.
  assert (H0 : held C (t_msgs (tsp_init p))).
  { destruct Hin as (_ & _ & _ & I4). split; [split|]; [exact I4| |].
    - repeat split; try apply mat_zeros; try exact HC; constructor.
    - repeat split; cbn; unfold zeros; [apply repeat_length | apply Forall_repeat, repeat_length | constructor]. }
  apply same_bind with (P := held (B * C)).
  - eapply same_weaken; [|apply (same_for_count (fun i => held ((Z.of_nat i + 1) * C)))].
    + intros m. apply held_mono. nia.
    + replace ((Z.of_nat 0 + 1) * C)%Z with C by lia. exact H0.
    + intros i m Hi Hm. eapply same_weaken; [|apply relaxed_step_same; [exact Hm | nia | nia]].
      intros m'. apply held_mono. nia.
  - intros m Hm. destruct Hm as ((H1 & H2 & H3 & H4 & H5) & S1 & S2 & S3).
    eapply same_bind.
    + apply (extrinsic_relaxed_full u N rnd Hrnd (B * C) (p_n p)); auto; [|nia|nia].
      cbn. rewrite repeat_length. congruence.
    + intros extr [He Hle].
      destruct (decide_same (Z.of_nat (p_n p) * (B * C)) extr (r_intr (t_sol (tsp_init p))) (p_e p)) as [E F]; auto;
        try (cbn; rewrite ?repeat_length; congruence).
      rewrite E. destruct (intrinsic_output extr (tsp_cost_edge (p_in p)) (r_intr (t_sol (tsp_init p)))) as [i|] eqn:Ri;
        [|apply same_none]. cbn [bind]. destruct (F i eq_refl) as [Li Ei].
      apply same_bind with (P := fun _ => True); [apply same_any|]. intros sel _.
      rewrite Ei. apply same_bind with (P := fun _ => True); [apply same_any|]. intros cost _.
      apply same_bind with (P := fun _ => True); [apply same_any|]. intros a _.
      apply same_ret; [reflexivity|]. split; [split; [repeat split; assumption | repeat split; assumption]|].
      split; cbn; congruence.
Qed.

Lemma reset_on A B edges cm e2d : mat (on A) cm -> mat (on B) e2d -> (A <= B)%Z ->
  same (mat (on B)) (reset_messages edges cm e2d) (reset_messages edges cm e2d).
Proof.
  intros Hc He L. unfold reset_messages. apply same_for; [exact He|]. intros i e _ He'.
  apply same_bind with (P := fun _ => True); [apply same_any|]. intros [a b] _.
  apply same_bind with (P := on A); [apply same_get2; exact Hc|]. intros c Hcc.
  assert (on B c) by (eapply on_mono; eauto).
  apply same_bind with (P := mat (on B)); [apply same_set2; auto|]. intros e1 H1.
  apply same_set2; auto.
Qed.
Lemma start_held B st m : held B (t_msgs st) -> start_round p st = Some m -> held (Z.max B C) m.
Proof.
  intros ((H1 & H2 & H3 & H4 & H5) & S1 & S2 & S3). unfold start_round.
  destruct Hin as (I1 & I2 & I3 & I4).
  destruct (p_reset p).
  - destruct (reset_on C (Z.max B C) (tsp_edges (p_in p)) (tsp_cost_matrix (p_in p)) (m_e2d (t_msgs st)) I2)
      as [_ F]; [eapply mat_mono; [|exact H1]; lia | lia |].
    destruct (reset_messages (tsp_edges (p_in p)) (tsp_cost_matrix (p_in p)) (m_e2d (t_msgs st))) as [e|];
      [|discriminate]. cbn [bind]. intros [= <-].
    repeat split; cbn; auto; try (eapply mat_mono; [|eassumption]; lia).
  - cbn [bind]. intros [= <-]. repeat split; cbn; auto; try (eapply mat_mono; [|eassumption]; lia).
Qed.

(** A round whose exact messages stay within [B] units and which has at most [K] constraints *)
Definition round_within (B : Z) (K : nat) (st : tsp_state) : Prop :=
  forall t m0 m, t <= p_iters p -> start_round p st = Some m0 ->
  for_up 0 t m0 (augmented_step p (a_deltas (t_an st))) = Some m ->
  length (m_sub m) <= K /\ messages (small B) m.
Definition enough (B : Z) (K : nat) : Prop :=
  (0 <= B /\ grown K B <= N /\ (Z.of_nat (p_n p) + Z.of_nat K) * B + C <= N
   /\ Z.of_nat (p_e p) * C <= N)%Z.

Lemma augmented_same A B K st : state_ok A st -> round_within B K st -> enough B K ->
  same (fun o => match o with Returned st' => state_ok B st' | _ => True end)
    (iterate_augmented_f rnd p st) (iterate_augmented p st).
Proof.
  intros (Hm & Hs) Hw (HB & L1 & L2 & L3).
  assert (E1 : iterate_augmented_f rnd p st = (m <- start_round p st ;; 
     m <- for_up 0 (p_iters p) m (augmented_step_f rnd p (a_deltas (t_an st))) ;;
     if existsb (existsb is_nan) (m_e2d m) then Some Exited else
     extr <- extrinsic_augmented_f rnd (m_deg m) (m_sub m) (r_extr (t_sol st)) ;;
     intr <- intrinsic_output_f rnd extr (tsp_cost_edge (p_in p)) (r_intr (t_sol st)) ;;
     let hd := hard_decision (p_thr p) intr in
     sel <- select_edges (p_e p) hd (tsp_edges (p_in p)) ;;
     cost <- selection_cost_f rnd hd (tsp_cost_edge (p_in p)) ;;
     let c := update_counts (p_max_count p) sel (t_cnt st) in
     a <- analyse p sel (t_an st) ;;
     Some (Returned
       {| t_msgs := m;
          t_sol := {| r_extr := extr; r_intr := intr; r_selected := sel; r_cost := cost |};
          t_an := a;
          t_cnt := {| c_old := c_old c; c_oldold := c_oldold c; c_noimp := c_noimp c; c_osc := c_osc c;
                      c_noimp_flag := c_noimp_flag c; c_osc_flag := c_osc_flag c;
                      c_num_aug := c_num_aug (t_cnt st) + 1 |} |}))).
  { unfold iterate_augmented_f, start_round. destruct (p_reset p); [|reflexivity].
    destruct (reset_messages _ _ _); reflexivity. }
  assert (E2 : iterate_augmented p st = (m <- start_round p st ;; 
     m <- for_up 0 (p_iters p) m (augmented_step p (a_deltas (t_an st))) ;;
     if existsb (existsb is_nan) (m_e2d m) then Some Exited else
     extr <- extrinsic_augmented (m_deg m) (m_sub m) (r_extr (t_sol st)) ;;
     intr <- intrinsic_output extr (tsp_cost_edge (p_in p)) (r_intr (t_sol st)) ;;
     let hd := hard_decision (p_thr p) intr in
     sel <- select_edges (p_e p) hd (tsp_edges (p_in p)) ;;
     cost <- selection_cost hd (tsp_cost_edge (p_in p)) ;;
     let c := update_counts (p_max_count p) sel (t_cnt st) in
     a <- analyse p sel (t_an st) ;;
     Some (Returned
       {| t_msgs := m;
          t_sol := {| r_extr := extr; r_intr := intr; r_selected := sel; r_cost := cost |};
          t_an := a;
          t_cnt := {| c_old := c_old c; c_oldold := c_oldold c; c_noimp := c_noimp c; c_osc := c_osc c;
                      c_noimp_flag := c_noimp_flag c; c_osc_flag := c_osc_flag c;
                      c_num_aug := c_num_aug (t_cnt st) + 1 |} |}))).
  { unfold iterate_augmented, start_round. destruct (p_reset p); [|reflexivity].
    destruct (reset_messages _ _ _); reflexivity. }
  rewrite E1, E2. clear E1 E2.
  destruct (start_round p st) as [m0|] eqn:R0; [|apply same_none]. cbn [bind].
  pose proof (start_held _ _ _ Hm R0) as H0.
  apply same_bind with (P := fun m => held B m /\ length (m_sub m) <= K).
  - apply steps_same with (W := fun m => held (grown K B) m /\ length (m_sub m) <= K).
    + destruct (Hw 0 m0 m0 ltac:(lia) R0 eq_refl) as [W1 W2]. split; [|exact W1].
      eapply held_small; eauto.
    + intros t m _ [J1 J2]. apply augmented_step_same; auto.
    + intros t m Ht R [W1 W2]. destruct (Hw t m0 m Ht R0 R) as [V1 V2]. split; [|exact V1].
      eapply held_small; eauto.
  - intros m [((H1 & H2 & H3 & H4 & H5) & S1 & S2 & S3) HK].
    destruct (existsb (existsb is_nan) (m_e2d m)); [apply same_ret; [reflexivity | exact I]|].
    destruct Hs as [Z1 Z2].
    eapply same_bind.
    + apply (extrinsic_augmented_full u N rnd Hrnd B (p_n p) K); auto; [congruence | nia].
    + intros extr [He Hle].
      destruct (decide_same (Z.of_nat (p_n p) * B + Z.of_nat K * B) extr (r_intr (t_sol st)) (p_e p)) as [E F]; auto;
        [congruence | nia |].
      rewrite E. destruct (intrinsic_output extr (tsp_cost_edge (p_in p)) (r_intr (t_sol st))) as [i|] eqn:Ri;
        [|apply same_none]. cbn [bind]. destruct (F i eq_refl) as [Li Ei].
      apply same_bind with (P := fun _ => True); [apply same_any|]. intros sel _.
      rewrite Ei. apply same_bind with (P := fun _ => True); [apply same_any|]. intros cost _.
      apply same_bind with (P := fun _ => True); [apply same_any|]. intros a _.
      apply same_ret; [reflexivity|]. split; [split; [repeat split; assumption | repeat split; assumption]|].
      split; cbn; congruence.
Qed.

Lemma extend_ok A k st : (0 <= A)%Z -> state_ok A st -> state_ok A (set_msgs st (extend_sub k (p_e p) (t_msgs st))).
Proof.
  intros HA (((H1 & H2 & H3 & H4 & H5) & S1 & S2 & S3) & Hs). split; [|exact Hs].
  assert (Z0 : mat (on A) (m_sub (t_msgs st) ++ zeros k (p_e p)))
    by (apply Forall_app; split; [exact H5 | apply mat_zeros; exact HA]).
  repeat split; cbn; auto. apply Forall_app. split; [exact S3|]. apply Forall_repeat, repeat_length.
Qed.

Lemma loop_same B K max : enough B K -> forall fuel A st, (0 <= A)%Z -> state_ok A st ->
  (forall f st', augmentation_loop f p max st = Some (Running st') -> round_within B K st') ->
  augmentation_loop_f rnd fuel p max st = augmentation_loop fuel p max st.
Proof.
  intros He. induction fuel as [|fuel IH]; intros A st HA Hst Hw;
    cbn [augmentation_loop_f augmentation_loop]; [reflexivity|].
  destruct (negb (a_satisfied (t_an st)) && p_aug p && negb (a_tour_flag (t_an st))) eqn:G1; [|reflexivity].
  destruct (a_nocons_flag (t_an st) || c_noimp_flag (t_cnt st) || c_osc_flag (t_cnt st)) eqn:G2; [reflexivity|].
  destruct (neqb (r_cost (t_sol st)) n0) eqn:G3; [reflexivity|].
  assert (W0 : round_within B K st).
  { apply (Hw 0). cbn [augmentation_loop]. rewrite G1, G2, G3. reflexivity. }
  destruct (augmented_same A B K st Hst W0 He) as [E F]. rewrite E.
  destruct (iterate_augmented p st) as [o|] eqn:R; [|reflexivity]. cbn [bind]. specialize (F o eq_refl).
  destruct o as [st1| |st1]; try reflexivity.
  destruct (Z.of_nat (c_num_aug (t_cnt st1)) =? max)%Z eqn:G4; [reflexivity|].
  destruct He as (HB & _).
  apply IH with (A := B); [exact HB | |].
  - destruct (length (m_sub (t_msgs st1)) =? length (a_deltas (t_an st1))); [exact F|].
    apply extend_ok; assumption.
  - intros f st' R'. apply (Hw (S f)). cbn [augmentation_loop]. rewrite G1, G2, G3, R. cbn [bind].
    rewrite G4. exact R'.
Qed.

(** Every round of the exact run stays within [B] units and [K] constraints. *)
Definition run_within (max : Z) (B : Z) (K : nat) : Prop :=
  forall f st, tsp_solve f p max = Some (Running st) -> round_within B K st.

Lemma solve_same B K T fuel max :
  (Z.of_nat (p_iters p) + 1 <= T)%Z -> (Z.of_nat (p_n p) * (T * C) + C <= N)%Z -> (T * C <= N)%Z ->
  enough B K -> run_within max B K ->
  tsp_solve_f rnd fuel p max = tsp_solve fuel p max.
Proof.
  intros HT L1 L2 He Hw. unfold tsp_solve_f, tsp_solve.
  destruct (relaxed_same T HT L1 L2) as [E F]; [apply He|]. rewrite E.
  destruct (iterate_relaxed p (tsp_init p)) as [st|] eqn:R; [|reflexivity]. cbn [bind].
  specialize (F st eq_refl).
  destruct (negb (a_satisfied (t_an st)) && p_aug p) eqn:G; [|reflexivity].
  unfold perform_augmentation_f, perform_augmentation.
  apply loop_same with (B := B) (K := K) (A := (T * C)%Z); [exact He | nia | |].
  - destruct (0 <? length (a_deltas (t_an st))); [|exact F]. apply extend_ok; [nia | exact F].
  - intros f st' R'. apply (Hw f). unfold tsp_solve. rewrite R. cbn [bind]. rewrite G. exact R'.
Qed.
Lemma solve_relaxed_same T fuel max : p_aug p = false ->
  (Z.of_nat (p_iters p) + 1 <= T)%Z -> (Z.of_nat (p_n p) * (T * C) + C <= N)%Z -> (T * C <= N)%Z ->
  (Z.of_nat (p_e p) * C <= N)%Z ->
  tsp_solve_f rnd fuel p max = tsp_solve fuel p max.
Proof.
  intros Ha HT L1 L2 L3. unfold tsp_solve_f, tsp_solve.
  destruct (relaxed_same T HT L1 L2 L3) as [E F]. rewrite E.
  destruct (iterate_relaxed p (tsp_init p)) as [st|] eqn:R; [|reflexivity]. cbn [bind].
  rewrite Ha, Bool.andb_false_r. reflexivity.
Qed.
End Tsp.
