(** * What the iterations of a TSP run compute (complete graphs) *)
From Coq Require Import Permutation.
From Verif Require Import Num NumFacts Arr ArrFacts Spec SpecGraph SpecRun MinSum MinSumFacts.
From Verif Require Import M_Tsp_Constraints P_Tsp_Constraints P_Kc_Trellis P_Ksat M_Equality P_Equality.
From Verif Require Import M_Filter P_Filter M_InOut P_InOut M_Runs P_Runs P_Schedule.
From Verif Require Import M_Tsp_Loops P_Tsp_Loops M_Tsp_Run P_Tsp_Run P_Tsp_Fin.
Local Open Scope nat_scope.

Lemma qsum_plus {A} (f g : A -> Qc) l : qsum (map (fun a => f a + g a)%Qc l) = (qsum (map f l) + qsum (map g l))%Qc.
Proof. induction l as [|a l IH]; cbn [map]; [cbn; ring|]. rewrite !qsum_cons, IH. ring. Qed.
Lemma qsum_none {A} (f : A -> Qc) l : (forall a, In a l -> f a = 0%Qc) -> qsum (map f l) = 0%Qc.
Proof.
  intros H. induction l as [|a l IH]; cbn [map]; [reflexivity|]. rewrite qsum_cons, IH.
  - rewrite (H a) by (cbn; auto). ring.
  - intros b I; apply H; cbn; auto.
Qed.
Lemma qsum_single (f : nat -> Qc) u l : NoDup l -> In u l -> (forall w, In w l -> w <> u -> f w = 0%Qc) ->
  qsum (map f l) = f u.
Proof.
  intros N I H. induction l as [|a l IH]; [destruct I|]. inversion N as [|? ? Na Nl]; subst. cbn [map]. rewrite qsum_cons.
  destruct (Nat.eq_dec a u) as [-> |D].
  - rewrite qsum_none; [ring|]. intros b Ib. apply H; [cbn; auto|]. intros ->; contradiction.
  - rewrite (H a) by (cbn; auto). rewrite IH; auto; [ring| |].
    + destruct I; [contradiction|auto].
    + intros w Iw. apply H; cbn; auto.
Qed.
Lemma row_as_map (r : list Qc) k : length r = k -> map (fun w => nth w r 0%Qc) (seq 0 k) = r.
Proof.
  intros <-. induction r as [|a r IH]; [reflexivity|]. cbn [length seq map nth]. f_equal.
  rewrite <- seq_shift, map_map. exact IH.
Qed.
Lemma qsum_two (r : list Qc) k u v : length r = k -> u < k -> v < k -> u <> v ->
  (forall w, w < k -> w <> u -> w <> v -> nth w r 0%Qc = 0%Qc) -> qsum r = (nth u r 0 + nth v r 0)%Qc.
Proof.
  intros L Hu Hv N H. rewrite <- (row_as_map r k L) at 1.
  set (f := fun w => nth w r 0%Qc).
  assert (E : map f (seq 0 k) = map (fun w => (if w =? u then f w else 0) + (if w =? u then 0 else f w))%Qc (seq 0 k)).
  { apply map_ext. intros w. destruct (w =? u); ring. }
  rewrite E, qsum_plus.
  rewrite (qsum_single (fun w => if w =? u then f w else 0%Qc) u), (qsum_single (fun w => if w =? u then 0%Qc else f w) v).
  - rewrite Nat.eqb_refl. destruct (Nat.eqb_spec v u); [congruence|]. reflexivity.
  - apply seq_NoDup.
  - apply in_seq; lia.
  - intros w Iw Nw. apply in_seq in Iw. destruct (Nat.eqb_spec w u); auto. apply H; auto; lia.
  - apply seq_NoDup.
  - apply in_seq; lia.
  - intros w Iw Nw. destruct (Nat.eqb_spec w u); congruence.
Qed.

Section Sched.
Variables (n : nat) (E : list (nat * nat)).
Hypothesis Hn : 3 <= n.
Hypothesis HE : complete n E.
Let e := length E.

(** degree messages [Dg] of the incoming [V] *)
Definition deg_eq (V Dg : list (list Qc)) : Prop :=
  forall u, u < n ->
    (forall pos i, nth_error (from_node E u) pos = Some i ->
       minsum_message exactly_one (map (fun i => qat V i u) (from_node E u)) pos (Fin (qat Dg i u))) /\
    (forall pos i, nth_error (into_node E u) pos = Some i ->
       minsum_message exactly_one (map (fun i => qat V i u) (into_node E u)) pos (Fin (qat Dg i u))).
(** entries of nodes that are not an end of the edge *)
Definition off_zero (M : list (list Qc)) : Prop :=
  forall i u v w, nth_error E i = Some (u, v) -> w < n -> w <> u -> w <> v -> qat M i w = 0%Qc.

Lemma degree_sem V D0 : shape e n V -> shape e n D0 -> off_zero D0 ->
  exists Dg, degree_update n e E (inj V) (inj D0) = Some (inj Dg) /\ shape e n Dg /\ deg_eq V Dg /\ off_zero Dg.
Proof.
  intros SV SD OZ.
  destruct (degree_fin n E Hn HE (inj V) (inj D0)) as (o & E1 & (Dg & SDg & Eo)); [exists V; auto|exists D0; auto|].
  fold e in E1. subst o.
  destruct (degree_update_ok e n V E (inj D0)) as (o & E2 & So & Hf & Hi & Ho); auto using shape_inj.
  { exact (complete_no_self n E HE). }
  { intros u Hu. pose proof (from_two n E Hn HE u Hu); pose proof (into_two n E Hn HE u Hu).
    split; intros Z; rewrite Z in *; cbn in *; lia. }
  rewrite E1 in E2. injection E2 as <-.
  assert (IF : forall u i, In i (from_node E u) -> i < e).
  { intros u i I. unfold from_node in I. apply filter_In in I as [I _]. apply in_seq in I. unfold e. lia. }
  assert (II : forall u i, In i (into_node E u) -> i < e).
  { intros u i I. unfold into_node in I. apply filter_In in I as [I _]. apply in_seq in I. unfold e. lia. }
  exists Dg. split; auto. split; auto. split.
  - intros u Hu. split; intros pos i G.
    + destruct (Hf u pos i Hu G) as (x & Gx & Mx). rewrite (get2_inj e n) in Gx; auto.
      2:{ apply (IF u). eapply nth_error_In; eauto. }
      injection Gx as <-. exact Mx.
    + destruct (Hi u pos i Hu G) as (x & Gx & Mx). rewrite (get2_inj e n) in Gx; auto.
      2:{ apply (II u). eapply nth_error_In; eauto. }
      injection Gx as <-. exact Mx.
  - intros i u v w G Hw N1 N2. assert (Hi' : i < e) by (apply nth_error_Some; congruence).
    assert (Gw : get2 (inj Dg) i w = get2 (inj D0) i w).
    { apply Ho; auto. rewrite (in_from n E Hn), (in_into n E Hn). unfold get. rewrite G.
      intros [(x & X)|(x & X)]; injection X; congruence. }
    rewrite !(get2_inj e n) in Gw by auto. injection Gw as ->. eapply OZ; eauto.
Qed.

Lemma off_filtered flag a iter Dg O M : off_zero Dg -> off_zero O \/ iter = 0 ->
  (forall i j, i < e -> j < n -> qat M i j = blend1 flag a iter (qat Dg i j) (qat O i j)) -> off_zero M.
Proof.
  intros HD HO H i u v w G Hw N1 N2. assert (Hi' : i < e) by (apply nth_error_Some; congruence).
  rewrite H by auto. rewrite (HD i u v w) by auto. unfold blend1. destruct (on flag a); auto.
  destruct HO as [HO | ->]; [|cbn; ring]. rewrite (HO i u v w) by auto. destruct (iter =? 0); ring.
Qed.

Lemma row_sum M i u v : shape e n M -> off_zero M -> nth_error E i = Some (u, v) ->
  qsum (nth i M []) = (qat M i u + qat M i v)%Qc.
Proof.
  intros SM OZ G. assert (Hi' : i < e) by (apply nth_error_Some; congruence).
  assert (Huv : u < n /\ v < n /\ u <> v) by (apply (proj2 HE); exact (nth_error_In _ _ G)).
  apply (qsum_two _ n); try tauto.
  - apply (shape_nth e n); auto.
  - intros w Hw N1 N2. apply (OZ i u v w); auto.
Qed.
End Sched.

Section Run.
Variable p : tsp_params.
Let n := p_n p.
Let e := p_e p.
Let E := tsp_edges (p_in p).
Variables (al : Qc) (cost : list Qc) (C : list (list Qc)).
Hypothesis Hn : 3 <= n.
Hypothesis HE : complete n E.
Hypothesis He : length E = e.
Hypothesis Hal : p_alpha p = Fin al.
Hypothesis Hcost : tsp_cost_edge (p_in p) = map Fin cost.
Hypothesis Lcost : length cost = e.
Hypothesis HC : tsp_degree_cost (p_in p) = inj C.
Hypothesis SC : shape e n C.

Definition sumcol (B : list (list Qc)) (S i : nat) : Qc := qsum (map (fun s => qat B s i) (seq 0 S)).
(** edge-to-degree messages [V'] from the degree messages [M] and, for [S] subtour constraints, the
    subtour messages [B] *)
Definition edge_eq (S : nat) (M B V' : list (list Qc)) : Prop :=
  forall i u v, nth_error E i = Some (u, v) ->
    qat V' i u = (qat C i u + qat M i v + sumcol B S i)%Qc /\
    qat V' i v = (qat C i v + qat M i u + sumcol B S i)%Qc.

Lemma relaxed_step_sem S m i : fin_msgs p S m -> off_zero n E (unm (m_deg_dummy m)) ->
  exists m', relaxed_step p m i = Some m' /\ fin_msgs p S m' /\ off_zero n E (unm (m_deg_dummy m')) /\
    deg_eq n E (unm (m_e2d m)) (unm (m_deg_dummy m')) /\
    (forall j w, j < e -> w < n -> qat (unm (m_deg m')) j w =
       blend1 (p_filt p) al i (qat (unm (m_deg_dummy m')) j w) (qat (unm (m_deg_old m)) j w)) /\
    (forall j w, j < e -> w < n -> on (p_filt p) al = true ->
       qat (unm (m_deg_old m')) j w = qat (unm (m_deg m')) j w) /\
    edge_eq 0 (unm (m_deg m')) [] (unm (m_e2d m')).
Proof.
  intros F OD. assert (Fh : finm e n (tsp_degree_cost (p_in p))) by (exists C; auto).
  destruct (relaxed_step_fin p Hn HE He (ex_intro _ al Hal) Fh S m i F) as (m' & R & F').
  exists m'. split; [exact R|]. split; [exact F'|].
  destruct F as ((V & SV & EV) & (D0 & SD & ED) & (O & SO & EO) & (M0 & SM & EM) & _). fold n e in SV, SD, SO, SM.
  unfold relaxed_step in R. fold e n E in R. rewrite Hal, HC, EV, ED, EO, EM in R. rewrite ED, unm_inj in OD.
  pose proof He as He'. rewrite <- He' in SV, SD, SO, SM, R.
  assert (SC' : shape (length E) n C) by (rewrite He'; exact SC).
  destruct (degree_sem n E Hn HE V D0 SV SD OD) as (Dg & E1 & SDg & DQ & OZ). rewrite E1 in R; cbn [bind] in R.
  destruct (process_filtering_ok (p_filt p) al i (length E) (length E) n Dg O (inj M0)) as (Q & O' & E2 & SQ & SO' & H2 & H3);
    auto using shape_inj.
  rewrite E2 in R; cbn [bind] in R.
  destruct (edge_to_degree_relaxed_ok (length E) n Q C E (inj V)) as (X & E3 & SX & H4); auto using shape_inj.
  { exact (complete_edges_in n E HE). } { exact (complete_no_self n E HE). }
  rewrite E3 in R; cbn [bind] in R. injection R as <-. cbn [m_e2d m_deg_dummy m_deg_old m_deg].
  rewrite EV, EO, !unm_inj. rewrite <- He'. split; [exact OZ|]. split; [exact DQ|]. split; [exact H2|]. split; [exact H3|].
  intros j u v G.
  assert (Huv : u < n /\ v < n /\ u <> v) by (apply (proj2 HE); exact (nth_error_In _ _ G)).
  rewrite (H4 j u v u), (H4 j u v v) by (auto; tauto). unfold swap. rewrite !Nat.eqb_refl.
  destruct (Nat.eqb_spec v u); [lia|]. unfold sumcol. cbn [seq map]. change (qsum []) with 0%Qc. split; ring.
Qed.

(** ** Augmented rounds *)
Section Deltas.
Variable deltas : list (list nat).
Hypothesis Hd : Forall (good_delta E) deltas.
Let S := length deltas.

Definition sub_off (B : list (list Qc)) : Prop :=
  forall s d i, nth_error deltas s = Some d -> i < e -> ~ In i d -> qat B s i = 0%Qc.
(** messages [ES] of the edges to the subtour constraints, from degree messages [M] and the
    previous subtour messages [B] *)
Definition edge_sub_eq (M B ES : list (list Qc)) : Prop :=
  forall s d i u v, nth_error deltas s = Some d -> In i d -> nth_error E i = Some (u, v) ->
    qat ES s i = (nth i cost 0 + qat M i u + qat M i v +
                  qsum (map (fun s' => qat B s' i) (others s (seq 0 S))))%Qc.
Definition sub_eq (ES SD : list (list Qc)) : Prop :=
  forall s d pos i, nth_error deltas s = Some d -> nth_error d pos = Some i ->
    minsum_message at_least_one (map (fun i => qat ES s i) d) pos (Fin (qat SD s i)).
Definition old_ok (m : tsp_msgs) : Prop := exists N, S <= N /\ finm N e (m_sub_old m).

Lemma augmented_step_sem m i : fin_msgs p S m -> old_ok m -> off_zero n E (unm (m_deg_dummy m)) ->
  sub_off (unm (m_sub_dummy m)) ->
  exists m' ES, augmented_step p deltas m i = Some m' /\ fin_msgs p S m' /\ old_ok m' /\
    off_zero n E (unm (m_deg_dummy m')) /\ sub_off (unm (m_sub_dummy m')) /\
    deg_eq n E (unm (m_e2d m)) (unm (m_deg_dummy m')) /\
    (forall j w, j < e -> w < n -> qat (unm (m_deg m')) j w =
       blend1 (p_filt p) al i (qat (unm (m_deg_dummy m')) j w) (qat (unm (m_deg_old m)) j w)) /\
    (forall j w, j < e -> w < n -> on (p_filt p) al = true ->
       qat (unm (m_deg_old m')) j w = qat (unm (m_deg m')) j w) /\
    edge_sub_eq (unm (m_deg m')) (unm (m_sub m)) ES /\
    sub_eq ES (unm (m_sub_dummy m')) /\
    (forall s j, s < S -> j < e -> qat (unm (m_sub m')) s j =
       blend1 (p_filt p) al i (qat (unm (m_sub_dummy m')) s j) (qat (unm (m_sub_old m)) s j)) /\
    (forall s j, s < S -> j < e -> on (p_filt p) al = true ->
       qat (unm (m_sub_old m')) s j = qat (unm (m_sub m')) s j) /\
    edge_eq S (unm (m_deg m')) (unm (m_sub m')) (unm (m_e2d m')).
Proof.
  intros F OK OD SOFF. assert (Fh : finm e n (tsp_degree_cost (p_in p))) by (exists C; auto).
  assert (Fc : finv e (tsp_cost_edge (p_in p))) by (exists cost; auto).
  destruct (augmented_step_fin p Hn HE He (ex_intro _ al Hal) Fc Fh deltas m i Hd F OK) as (m' & R & F' & OK').
  destruct F as ((V & SV & EV) & (D0 & SD & ED) & (O & SO & EO) & (M0 & SM & EM) & (B & SB & EB) & (B0 & SB0 & EB0) & _).
  destruct OK as (N & LN & (P0 & SP0 & EP0)). fold n e in SV, SD, SO, SM, SB, SB0, SP0. fold S in LN, SB, SB0.
  unfold augmented_step in R. fold e n E in R. cbn zeta in R.
  rewrite Hal, HC, Hcost, EV, ED, EO, EM, EB, EB0, EP0 in R. rewrite ED, unm_inj in OD. rewrite EB0, unm_inj in SOFF.
  pose proof He as He'. rewrite <- He' in SV, SD, SO, SM, SB, SB0, SP0, R.
  assert (SC' : shape (length E) n C) by (rewrite He'; exact SC).
  destruct (degree_sem n E Hn HE V D0 SV SD OD) as (Dg & E1 & SDg & DQ & OZ). rewrite E1 in R; cbn [bind] in R.
  destruct (process_filtering_ok (p_filt p) al i (length E) (length E) n Dg O (inj M0)) as (Q & O' & E2 & SQ & SO' & H2 & H3);
    auto using shape_inj.
  rewrite E2 in R; cbn [bind] in R.
  assert (Rd : Forall (Forall (fun j => j < length E)) deltas).
  { apply Forall_forall; intros d Id. rewrite Forall_forall in Hd. apply (Hd d Id). }
  destruct (edge_to_subtour_ok (length E) n S Q B cost E deltas) as (ES & E3 & SES & H4 & H5); auto.
  { rewrite He'; exact Lcost. } { exact (complete_edges_in n E HE). }
  rewrite E3 in R; cbn [bind] in R.
  destruct (subtour_fin n E Hn deltas (inj ES) (inj B0) Hd) as (sd & E4 & (SDm & SSD & ->));
    [exists ES; auto|exists B0; auto|].
  destruct (subtour_update_ok (length E) S ES deltas (inj B0)) as (sd' & E4' & _ & H6 & H7); auto using shape_inj.
  { apply Forall_forall; intros d Id. rewrite Forall_forall in Hd. destruct (Hd d Id) as (X1 & X2 & X3).
    split; [intros ->; cbn in X1; lia|auto]. }
  rewrite E4 in E4'. injection E4' as <-. rewrite E4 in R; cbn [bind] in R.
  destruct (process_filtering_ok (p_filt p) al i S N (length E) SDm P0 (inj B)) as (Q2 & P' & E5 & SQ2 & SP' & H8 & H9);
    auto using shape_inj.
  fold S in R. rewrite E5 in R; cbn [bind] in R.
  destruct (edge_to_degree_augmented_ok (length E) n S Q Q2 C E (inj V)) as (X & E6 & SX & H10 & H11); auto using shape_inj.
  { exact (complete_edges_in n E HE). } { exact (complete_no_self n E HE). }
  rewrite E6 in R; cbn [bind] in R. injection R as R.
  exists m', ES. split.
  { unfold augmented_step. fold e n E. cbn zeta.
    rewrite Hal, HC, Hcost, EV, ED, EO, EM, EB, EB0, EP0. rewrite <- He', E1; cbn [bind]. rewrite E2; cbn [bind].
    rewrite E3; cbn [bind]. rewrite E4; cbn [bind]. fold S. rewrite E5; cbn [bind]. rewrite E6; cbn [bind].
    rewrite R. reflexivity. }
  split; [exact F'|]. split; [exact OK'|]. subst m'. cbn [m_e2d m_deg_dummy m_deg_old m_deg m_sub_dummy m_sub_old m_sub].
  rewrite EV, EO, EB, EP0, !unm_inj. rewrite <- He'.
  assert (RI : forall s d j, nth_error deltas s = Some d -> In j d -> s < S /\ j < length E).
  { intros s d j G I. split; [apply nth_error_Some; congruence|]. rewrite Forall_forall in Rd.
    specialize (Rd d (nth_error_In _ _ G)). rewrite Forall_forall in Rd. auto. }
  split; [exact OZ|]. split.
  { intros s d j G Hj NI. assert (Hs : s < S) by (apply nth_error_Some; congruence). rewrite <- He' in Hj.
    pose proof (H7 s d j G NI) as X0. rewrite !(get2_inj S (length E)) in X0 by auto. injection X0 as ->.
    apply (SOFF s d j); auto. rewrite <- He'; auto. }
  split; [exact DQ|]. split; [exact H2|]. split; [exact H3|]. split.
  { intros s d j u v G I Ge. rewrite (H4 s d j u v G I Ge). reflexivity. }
  split.
  { intros s d pos j G Gp. destruct (H6 s d pos j G Gp) as (x & Gx & Mx).
    destruct (RI s d j G (nth_error_In _ _ Gp)) as [A1 A2].
    rewrite (get2_inj S (length E)) in Gx by auto. injection Gx as <-. exact Mx. }
  split; [exact H8|]. split; [exact H9|].
  intros j u v G. assert (Hj : j < length E) by (apply nth_error_Some; congruence).
  assert (Huv : u < n /\ v < n /\ u <> v) by (apply (proj2 HE); exact (nth_error_In _ _ G)).
  destruct (H10 j u v G) as [K1 K2]. split.
  - rewrite (qat_unm (length E) n X j u _ SX Hj (proj1 Huv) K1). unfold sumcol. ring.
  - rewrite (qat_unm (length E) n X j v _ SX Hj (proj1 (proj2 Huv)) K2). unfold sumcol. ring.
Qed.
End Deltas.

Lemma filtered_zero flag a d t : (forall i, d i = 0%Qc) -> filtered flag a d t = 0%Qc.
Proof.
  intros H. unfold filtered. destruct (_ && _); auto. apply qsum_none. intros i _. rewrite H. ring.
Qed.

(** a phase of [iters] iterations over the degree constraints only *)
Definition relaxed_phase (V Dg M : nat -> list (list Qc)) : Prop :=
  forall t, deg_eq n E (V t) (Dg t) /\
    (forall i w, i < e -> w < n -> qat (M t) i w = filtered (p_filt p) al (fun r => qat (Dg r) i w) t) /\
    edge_eq 0 (M t) [] (V (t + 1)).

Lemma relaxed_run_sem m0 : fin_msgs p 0 m0 -> off_zero n E (unm (m_deg_dummy m0)) ->
  exists m V Dg M, for_up 0 (p_iters p) m0 (relaxed_step p) = Some m /\ fin_msgs p 0 m /\
    off_zero n E (unm (m_deg_dummy m)) /\
    V 0 = unm (m_e2d m0) /\ relaxed_phase V Dg M /\ unm (m_e2d m) = V (p_iters p) /\
    (0 < p_iters p -> unm (m_deg m) = M (p_iters p - 1) /\ off_zero n E (M (p_iters p - 1))).
Proof.
  intros F0 O0.
  destruct (run_seq m0 (relaxed_step p) (fun m => fin_msgs p 0 m /\ off_zero n E (unm (m_deg_dummy m)))) as (s & S0 & HS).
  { auto. }
  { intros m i (F & O). destruct (relaxed_step_sem 0 m i F O) as (m' & R & F' & O' & _). eauto. }
  exists (s (p_iters p)), (fun t => unm (m_e2d (s t))), (fun t => unm (m_deg_dummy (s (t + 1)))),
    (fun t => unm (m_deg (s (t + 1)))).
  destruct (HS (p_iters p)) as ((F & O) & _ & R). split; [exact R|]. split; [exact F|]. split; [exact O|].
  split; [rewrite S0; reflexivity|].
  assert (ST : forall t, deg_eq n E (unm (m_e2d (s t))) (unm (m_deg_dummy (s (t + 1)))) /\
    (forall j w, j < e -> w < n -> qat (unm (m_deg (s (t + 1)))) j w =
       blend1 (p_filt p) al t (qat (unm (m_deg_dummy (s (t + 1)))) j w) (qat (unm (m_deg_old (s t))) j w)) /\
    (forall j w, j < e -> w < n -> on (p_filt p) al = true ->
       qat (unm (m_deg_old (s (t + 1)))) j w = qat (unm (m_deg (s (t + 1)))) j w) /\
    edge_eq 0 (unm (m_deg (s (t + 1)))) [] (unm (m_e2d (s (t + 1))))).
  { intros t. destruct (HS t) as ((Ft & Ot) & Rt & _). destruct (relaxed_step_sem 0 (s t) t Ft Ot) as (m' & R' & _ & _ & Z).
    rewrite Rt in R'. injection R' as <-. exact Z. }
  assert (FL : forall t i w, i < e -> w < n -> qat (unm (m_deg (s (t + 1)))) i w =
    filtered (p_filt p) al (fun r => qat (unm (m_deg_dummy (s (r + 1)))) i w) t).
  { intros t i w Hi Hw.
    apply (filtered_run (p_filt p) al (fun r => qat (unm (m_deg_dummy (s (r + 1)))) i w)
      (fun r => qat (unm (m_deg_old (s r))) i w) (fun r => qat (unm (m_deg (s (r + 1)))) i w)).
    - intros r. apply ST; auto.
    - intros r On. apply ST; auto. }
  split; [|split; [reflexivity|]].
  - intros t. split; [apply ST|]. split; [apply FL|apply ST].
  - intros Hp. replace (p_iters p - 1 + 1) with (p_iters p) by lia. split; [reflexivity|].
    intros i u v w G Hw N1 N2. assert (Hi : i < e) by (rewrite <- He; apply nth_error_Some; congruence).
    replace (p_iters p) with (p_iters p - 1 + 1) by lia. rewrite FL by auto. apply filtered_zero.
    intros r. destruct (HS (r + 1)) as ((_ & Or) & _). apply (Or i u v w); auto.
Qed.

Section Rounds.
Variable deltas : list (list nat).
Hypothesis Hd : Forall (good_delta E) deltas.
Let S := length deltas.

(** a phase of iterations over degree and subtour constraints *)
Definition round_phase (V Dg M B ES SD : nat -> list (list Qc)) : Prop :=
  forall t, deg_eq n E (V t) (Dg t) /\
    (forall i w, i < e -> w < n -> qat (M t) i w = filtered (p_filt p) al (fun r => qat (Dg r) i w) t) /\
    edge_sub_eq deltas (M t) (B t) (ES t) /\ sub_eq deltas (ES t) (SD t) /\
    (forall s i, s < S -> i < e -> qat (B (t + 1)) s i = filtered (p_filt p) al (fun r => qat (SD r) s i) t) /\
    edge_eq S (M t) (B (t + 1)) (V (t + 1)) /\ sub_off deltas (SD t).

Lemma round_run_sem m0 : fin_msgs p S m0 -> old_ok deltas m0 -> off_zero n E (unm (m_deg_dummy m0)) ->
  sub_off deltas (unm (m_sub_dummy m0)) -> sub_off deltas (unm (m_sub m0)) ->
  exists m V Dg M B ES SD, for_up 0 (p_iters p) m0 (augmented_step p deltas) = Some m /\ fin_msgs p S m /\
    off_zero n E (unm (m_deg_dummy m)) /\ sub_off deltas (unm (m_sub_dummy m)) /\ sub_off deltas (unm (m_sub m)) /\
    V 0 = unm (m_e2d m0) /\ B 0 = unm (m_sub m0) /\ round_phase V Dg M B ES SD /\
    unm (m_e2d m) = V (p_iters p) /\ unm (m_sub m) = B (p_iters p) /\
    (0 < p_iters p -> unm (m_deg m) = M (p_iters p - 1) /\ off_zero n E (M (p_iters p - 1))).
Proof.
  intros F0 K0 O0 Z0 Y0.
  destruct (run_seq m0 (augmented_step p deltas) (fun m => fin_msgs p S m /\ old_ok deltas m /\
    off_zero n E (unm (m_deg_dummy m)) /\ sub_off deltas (unm (m_sub_dummy m)))) as (s & S0 & HS).
  { auto. }
  { intros m i (F & K & O & Z). destruct (augmented_step_sem deltas Hd m i F K O Z) as (m' & ES & R & F' & K' & O' & Z' & _). exists m'; auto. }
  assert (ST : forall t, exists ES, deg_eq n E (unm (m_e2d (s t))) (unm (m_deg_dummy (s (t + 1)))) /\
    (forall j w, j < e -> w < n -> qat (unm (m_deg (s (t + 1)))) j w =
       blend1 (p_filt p) al t (qat (unm (m_deg_dummy (s (t + 1)))) j w) (qat (unm (m_deg_old (s t))) j w)) /\
    (forall j w, j < e -> w < n -> on (p_filt p) al = true ->
       qat (unm (m_deg_old (s (t + 1)))) j w = qat (unm (m_deg (s (t + 1)))) j w) /\
    edge_sub_eq deltas (unm (m_deg (s (t + 1)))) (unm (m_sub (s t))) ES /\
    sub_eq deltas ES (unm (m_sub_dummy (s (t + 1)))) /\
    (forall q j, q < S -> j < e -> qat (unm (m_sub (s (t + 1)))) q j =
       blend1 (p_filt p) al t (qat (unm (m_sub_dummy (s (t + 1)))) q j) (qat (unm (m_sub_old (s t))) q j)) /\
    (forall q j, q < S -> j < e -> on (p_filt p) al = true ->
       qat (unm (m_sub_old (s (t + 1)))) q j = qat (unm (m_sub (s (t + 1)))) q j) /\
    edge_eq S (unm (m_deg (s (t + 1)))) (unm (m_sub (s (t + 1)))) (unm (m_e2d (s (t + 1))))).
  { intros t. destruct (HS t) as ((Ft & Kt & Ot & Zt) & Rt & _).
    destruct (augmented_step_sem deltas Hd (s t) t Ft Kt Ot Zt) as (m' & ES & R' & _ & _ & _ & _ & Z).
    rewrite Rt in R'. injection R' as <-. exists ES. exact Z. }
  assert (EX : exists ES : nat -> list (list Qc), forall t,
    edge_sub_eq deltas (unm (m_deg (s (t + 1)))) (unm (m_sub (s t))) (ES t) /\
    sub_eq deltas (ES t) (unm (m_sub_dummy (s (t + 1))))).
  { (* the edge-to-subtour messages as a function of the state *)
    exists (fun t => match edge_to_subtour (p_e p) deltas (tsp_cost_edge (p_in p)) (m_deg (s (t + 1))) (m_sub (s t)) E with
                     | Some x => unm x | None => [] end).
    intros t. destruct (HS t) as ((Ft & Kt & Ot & Zt) & Rt & _).
    destruct (HS (t + 1)) as ((F1 & _) & _).
    destruct Ft as (_ & _ & _ & _ & (B & SB & EB) & (B0 & SB0 & EB0) & _).
    destruct F1 as (_ & _ & _ & (M & SM & EM) & _ & (D1 & SD1 & ED1) & _).
    fold e in SB, SB0, SD1, SM. fold n in SM.
    unfold augmented_step in Rt. cbn zeta in Rt. fold e n E in Rt |- *.
    destruct (degree_update n e E _ _) as [dg|] eqn:X1; cbn [bind] in Rt; [|discriminate].
    destruct (process_filtering _ _ _ _ _ _ _) as [[deg old]|] eqn:X2; cbn [bind] in Rt; [|discriminate].
    destruct (edge_to_subtour _ _ _ _ _ _) as [es|] eqn:X3; cbn [bind] in Rt; [|discriminate].
    destruct (subtour_update _ _ _ _) as [sd|] eqn:X4; cbn [bind] in Rt; [|discriminate].
    destruct (process_filtering _ _ _ (length deltas) _ _ _) as [[sub sold]|] eqn:X5; cbn [bind] in Rt; [|discriminate].
    destruct (edge_to_degree_augmented _ _ _ _ _ _) as [e2|] eqn:X6; cbn [bind] in Rt; [|discriminate].
    injection Rt as Rt.
    assert (Q1 : m_deg (s (t + 1)) = deg) by (rewrite <- Rt; reflexivity).
    assert (Q2 : m_sub_dummy (s (t + 1)) = sd) by (rewrite <- Rt; reflexivity).
    rewrite Q1 in EM |- *. rewrite Q2 in ED1 |- *. rewrite X3. subst deg sd.
    rewrite EB, Hcost in X3. rewrite EB0 in X4. rewrite EB, !unm_inj.
    pose proof He as He'. rewrite <- He' in X3, X4, SB, SB0, SM, SD1.
    assert (Rd : Forall (Forall (fun j => j < length E)) deltas).
    { apply Forall_forall; intros d Id. rewrite Forall_forall in Hd. apply (Hd d Id). }
    destruct (edge_to_subtour_ok (length E) n S M B cost E deltas) as (ES & E3 & SES & H4 & H5); auto.
    { rewrite He'; exact Lcost. } { exact (complete_edges_in n E HE). }
    rewrite E3 in X3. injection X3 as <-. rewrite unm_inj.
    destruct (subtour_update_ok (length E) S ES deltas (inj B0)) as (sd' & E4' & _ & H6 & H7); auto using shape_inj.
    { apply Forall_forall; intros d Id. rewrite Forall_forall in Hd. destruct (Hd d Id) as (Y1 & Y2 & Y3).
      split; [intros ->; cbn in Y1; lia|auto]. }
    rewrite X4 in E4'. injection E4' as <-. split.
    - intros q d j u v G I Ge. rewrite (H4 q d j u v G I Ge). reflexivity.
    - intros q d pos j G Gp. destruct (H6 q d pos j G Gp) as (x & Gx & Mx).
      assert (Hq : q < S) by (apply nth_error_Some; congruence).
      assert (Hj : j < length E).
      { rewrite Forall_forall in Rd. specialize (Rd d (nth_error_In _ _ G)). rewrite Forall_forall in Rd.
        apply Rd. eapply nth_error_In; eauto. }
      rewrite (get2_inj S (length E)) in Gx by auto. injection Gx as <-. exact Mx. }
  destruct EX as (ES & EX).
  exists (s (p_iters p)), (fun t => unm (m_e2d (s t))), (fun t => unm (m_deg_dummy (s (t + 1)))),
    (fun t => unm (m_deg (s (t + 1)))), (fun t => unm (m_sub (s t))), ES, (fun t => unm (m_sub_dummy (s (t + 1)))).
  destruct (HS (p_iters p)) as ((F & K & O & Z) & _ & R).
  assert (FL : forall t i w, i < e -> w < n -> qat (unm (m_deg (s (t + 1)))) i w =
    filtered (p_filt p) al (fun r => qat (unm (m_deg_dummy (s (r + 1)))) i w) t).
  { intros t i w Hi Hw.
    apply (filtered_run (p_filt p) al (fun r => qat (unm (m_deg_dummy (s (r + 1)))) i w)
      (fun r => qat (unm (m_deg_old (s r))) i w) (fun r => qat (unm (m_deg (s (r + 1)))) i w)).
    - intros r. destruct (ST r) as (_ & _ & X & _). auto.
    - intros r On. destruct (ST r) as (_ & _ & _ & X & _). auto. }
  assert (FS : forall t q i, q < S -> i < e -> qat (unm (m_sub (s (t + 1)))) q i =
    filtered (p_filt p) al (fun r => qat (unm (m_sub_dummy (s (r + 1)))) q i) t).
  { intros t q i Hq Hi.
    apply (filtered_run (p_filt p) al (fun r => qat (unm (m_sub_dummy (s (r + 1)))) q i)
      (fun r => qat (unm (m_sub_old (s r))) q i) (fun r => qat (unm (m_sub (s (r + 1)))) q i)).
    - intros r. destruct (ST r) as (_ & _ & _ & _ & _ & _ & X & _). auto.
    - intros r On. destruct (ST r) as (_ & _ & _ & _ & _ & _ & _ & X & _). auto. }
  split; [exact R|]. split; [exact F|]. split; [exact O|]. split; [exact Z|]. split.
  { destruct (Nat.eq_dec (p_iters p) 0) as [Ez|Nz]; [rewrite Ez, S0; exact Y0|].
    intros q d i G Hi NI. assert (Hq : q < S) by (apply nth_error_Some; congruence).
    replace (p_iters p) with (p_iters p - 1 + 1) by lia. rewrite FS by auto. apply filtered_zero.
    intros r. destruct (HS (r + 1)) as ((_ & _ & _ & Zr) & _). apply (Zr q d i); auto. }
  split; [rewrite S0; reflexivity|]. split; [rewrite S0; reflexivity|].
  split; [|split; [reflexivity|split; [reflexivity|]]].
  - intros t. destruct (ST t) as (ES' & X1 & _ & _ & _ & _ & _ & _ & X2).
    split; [exact X1|]. split; [apply FL|]. split; [apply EX|]. split; [apply EX|]. split; [apply FS|].
    split; [exact X2|]. apply (HS (t + 1)).
  - intros Hp. replace (p_iters p - 1 + 1) with (p_iters p) by lia. split; [reflexivity|].
    intros i u v w G Hw N1 N2. assert (Hi : i < e) by (rewrite <- He; apply nth_error_Some; congruence).
    replace (p_iters p) with (p_iters p - 1 + 1) by lia. rewrite FL by auto. apply filtered_zero.
    intros r. destruct (HS (r + 1)) as ((_ & _ & Or & _) & _). apply (Or i u v w); auto.
Qed.
End Rounds.
End Run.
