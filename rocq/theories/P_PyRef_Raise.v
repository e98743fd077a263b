(** * Rounds of the pure Python TSP solver raise nothing, also with empty constraints *)
From Verif Require Import Num NumFacts Arr ArrFacts Spec SpecGraph SpecRun MinSum MinSumFacts.
From Verif Require Import M_Tsp_Constraints P_Tsp_Constraints P_Kc_Trellis P_Ksat M_Equality P_Equality.
From Verif Require Import M_Filter P_Filter M_InOut P_InOut M_Runs P_Runs P_Schedule.
From Verif Require Import M_Tsp_Loops P_Tsp_Loops M_Tsp_Run P_Tsp_Run P_Tsp_Fin P_Tsp_Sched P_Tsp_Rounds.
From Verif Require Import P_Ksat_Py M_Tsp_Py P_Tsp_Py M_PyRef M_PyRef_Kc M_PyRef_Ksat M_PyRef_Run M_PyRef_Tsp P_PyRef P_PyRef_Run P_PyRef_Tsp.
Local Open Scope nat_scope.

(** no constraint has exactly one edge *)
Definition cut_ok (e : nat) (d : list nat) : Prop := length d <> 1 /\ NoDup d /\ Forall (fun i => i < e) d.

Lemma subtour_some e deltas ES : shape (length deltas) e ES -> Forall (cut_ok e) deltas ->
  exists SD, py_subtour_update e deltas (inj ES) = Some (inj SD) /\ shape (length deltas) e SD.
Proof.
  intros SE H. destruct (py_subtour_ok e (length deltas) ES deltas eq_refl SE H) as (out & E1 & S1 & A & B).
  destruct (finm_of (length deltas) e out S1) as (Q & SQ & ->); [|exists Q; auto].
  intros s i Hs Hi. destruct (get_lt deltas s Hs) as (dl & G). destruct (in_dec Nat.eq_dec i dl) as [I|NI].
  - apply In_nth_error in I as (pos & I). destruct (A s dl pos i G I) as (v & Gv & Mv).
    rewrite Forall_forall in H. destruct (H dl (nth_error_In _ _ G)) as (H1 & _).
    assert (Lp : pos < length dl) by (apply nth_error_Some; congruence).
    assert (L2 : 2 <= length dl) by lia.
    destruct (alo_msg_fin _ _ _ ltac:(rewrite map_length; exact L2) ltac:(rewrite map_length; exact Lp) Mv) as (q & ->). eauto.
  - exists 0%Qc. exact (B s dl i G Hi NI).
Qed.

Lemma py_delta_ok n E l : 3 <= n -> complete n E -> cut_ok (length E) (py_delta E l).
Proof.
  intros Hn HE. destruct l as [|x l].
  - assert (Z : py_delta E [] = []).
    { unfold py_delta. rewrite (indices_spec _ E (0, 0)). rewrite (filter_ext_in _ (fun _ => false)).
      - generalize (seq 0 (length E)). intros s; induction s; auto.
      - intros i _. cbn [existsb]. apply andb_false_r. }
    rewrite Z. split; [discriminate|]. split; [constructor|constructor].
  - assert (R : x :: l = rot1 (l ++ [x])).
    { unfold rot1. destruct l as [|y l]; [reflexivity|]. change ((y :: l) ++ [x]) with (y :: (l ++ [x])).
      cbv iota. change (y :: (l ++ [x])) with ((y :: l) ++ [x]). rewrite last_last, removelast_last. reflexivity. }
    rewrite R, py_delta_same; [|intros u v I; apply (proj2 HE) in I; tauto|destruct l; discriminate].
    destruct (delta_S E (l ++ [x])) as [|y t] eqn:D; [split; [discriminate|split; constructor]|].
    destruct (delta_two n E Hn HE (l ++ [x])) as (A & B & C); [congruence|]. rewrite D in A, B, C. split; [lia|auto].
Qed.

Lemma add_fold_all (P : list nat -> Prop) E (hds : list num) loops : (forall l, P (py_delta E l)) -> forall ds ds', foldM (fun ds l =>
     idx <- py_indices E l ;; _ <- np_take hds idx ;;
     Some (if existsb (fun d' => list_eqb d' (py_delta E l)) ds then ds else ds ++ [py_delta E l])) loops ds = Some ds' ->
  Forall P ds -> Forall P ds' /\ length ds <= length ds'.
Proof.
  intros HP. induction loops as [|l loops IH]; cbn [foldM]; intros ds ds' H F; [injection H as <-; auto|].
  destruct (py_indices E l) as [idx|]; [|discriminate]. cbn [bind] in H.
  destruct (np_take hds idx); [|discriminate]. cbn [bind] in H.
  destruct (existsb _ ds); [exact (IH _ _ H F)|].
  destruct (IH _ _ H) as (A & B); [apply Forall_app; auto|]. rewrite app_length in B. split; [exact A|lia].
Qed.
Lemma py_analysis_all (P : list nat -> Prop) d m intr dec ds tour f s ps : (forall l, P (py_delta (pd_edges d) l)) ->
  py_analysis d m intr dec ds tour f s = Some ps -> Forall P ds -> Forall P (pt_deltas ps) /\ length ds <= length (pt_deltas ps).
Proof.
  intros HP. unfold py_analysis. destruct dec as ((hds & sel) & c). destruct (py_get_closed_loops sel) as [[|l ls]|]; cbn [bind]; [| |discriminate].
  { intros X; injection X as <-. auto. }
  destruct (_ && _).
  - destruct (get l 0); cbn [bind]; [|discriminate]. intros X; injection X as <-. auto.
  - match goal with |- context [foldM ?f ?l ds] => destruct (foldM f l ds) as [ds'|] eqn:F end; cbn [bind]; [|discriminate].
    intros X; injection X as <-. exact (add_fold_all P _ hds _ HP _ _ F).
Qed.

Section Raise.
Variables (p : tsp_params) (o : pt_options) (al : Qc) (cost : list Qc) (C CM : list (list Qc)).
Let n := p_n p.
Let e := p_e p.
Let E := tsp_edges (p_in p).
Hypothesis Hn : 3 <= n.
Hypothesis HE : complete n E.
Hypothesis He : length E = e.
Hypothesis Hal : p_alpha p = Fin al.
Hypothesis Lcost : length cost = e.
Hypothesis SC : shape e n C.
Hypothesis OC : off_zero n E C.
Hypothesis SCM : shape n n CM.
Hypothesis Ho1 : po_iters o = p_iters p.
Hypothesis Ho4 : po_filt o = p_filt p.
Hypothesis Ho5 : po_alpha o = p_alpha p.
Hypothesis Ho6 : po_thr o = p_thr p.
Hypothesis Halpha : p_filt p = true -> al <> 0%Qc.
Hypothesis Hthr : is_nan (p_thr p) = false.
Hypothesis Po : p_ord p = (fun l => l).
Hypothesis Hi : 0 < p_iters p.
Let d := {| pd_n := n; pd_cm := inj CM; pd_edges := E; pd_cost := map Fin cost; pd_degree_cost := inj C |}.

Lemma filter_some (P : list (list Qc) -> Prop) iter r c D old : shape r c D ->
  (on (p_filt p) al = true -> 0 < iter -> exists O, old = Some (inj O) /\ shape r c O /\ P O) ->
  exists O Q old', py_filtering (po_filt o) (po_alpha o) iter (inj D) old = Some (inj Q, old') /\ shape r c Q /\
    (forall i j, i < r -> j < c -> qat Q i j = blend1 (p_filt p) al iter (qat D i j) (qat O i j)) /\
    (on (p_filt p) al = true -> old' = Some (inj Q)) /\ (on (p_filt p) al = true -> 0 < iter -> P O).
Proof.
  intros SD H. rewrite Ho4, Ho5, Hal.
  assert (X : exists O, shape r c O /\ (on (p_filt p) al = true -> 0 < iter -> old = Some (inj O) /\ P O)).
  { destruct (zeros_inj r c) as (Z & _ & SZ & _).
    destruct (on (p_filt p) al); [|exists Z; split; [exact SZ|discriminate]].
    destruct (Nat.eq_dec iter 0) as [->|N]; [exists Z; split; [exact SZ|intros; lia]|].
    destruct (H eq_refl ltac:(lia)) as (O & A & B & K). exists O. auto. }
  destruct X as (O & SO & X).
  destruct (py_filtering_ok (p_filt p) al iter r c D old O SD SO Halpha) as (Q & old' & A1 & A2 & A3 & A4).
  { intros U V. apply X; auto. }
  exists O, Q, old'. repeat (split; [assumption|]). intros U V. apply X; auto.
Qed.

Definition messages_ok (S i : nat) (pm : pt_msgs) : Prop :=
  (exists V, pm_e2d pm = inj V /\ shape e n V /\ off_zero n E V) /\
  (exists B, pm_sub pm = inj B /\ shape S e B) /\
  (on (p_filt p) al = true -> 0 < i -> exists O, pm_deg_old pm = Some (inj O) /\ shape e n O /\ off_zero n E O) /\
  (on (p_filt p) al = true -> 0 < i -> exists O, pm_sub_old pm = Some (inj O) /\ shape S e O /\ True) /\
  (0 < i -> exists Q, pm_deg pm = Some (inj Q) /\ shape e n Q).

Lemma step_some deltas i pm : Forall (cut_ok e) deltas -> deltas <> [] -> messages_ok (length deltas) i pm ->
  exists pm', py_augmented_step o d deltas pm i = Some pm' /\ messages_ok (length deltas) (i + 1) pm'.
Proof.
  intros Hd Nd ((V & E1 & S1 & O1) & (B & E2 & S2) & F1 & F2 & _).
  assert (L0 : length deltas <> 0) by (destruct deltas; [congruence|discriminate]).
  destruct (zeros_inj e n) as (Z & _ & SZ & HZ).
  destruct (degree_both p o cost Hn HE He Lcost Ho1 V Z S1 SZ) as (Dg & _ & A2 & A3 & A4).
  { intros j u v w _ _ _ _. apply HZ. }
  destruct (filter_some (off_zero n E) i e n Dg (pm_deg_old pm) A3 F1) as (O & Q & old & B1 & B2 & B3 & B4 & B5).
  assert (OQ : off_zero n E Q) by (apply (off_filter p o al cost Hn He Lcost Ho1 i Dg O Q); auto).
  assert (Rd : Forall (Forall (fun j => j < e)) deltas) by (eapply Forall_impl; [|exact Hd]; intros dl X; apply X).
  destruct (py_edge_to_subtour_ok e n (length deltas) Q B cost deltas B2 eq_refl L0 S2 Lcost Rd) as (ES & C1 & C2 & _).
  destruct (subtour_some e deltas ES C2 Hd) as (SD & D1 & D2).
  destruct (filter_some (fun _ => True) i (length deltas) e SD (pm_sub_old pm) D2 F2) as (O' & B' & old' & G1 & G2 & _ & G4 & _).
  assert (Le : 2 <= e).
  { rewrite <- He. unfold E. rewrite <- (num_edges p HE). unfold py_num_edges. fold n. nia. }
  destruct (e2d_both p o cost C Hn HE He Lcost SC OC Ho1 (repeat [0; 1] (length deltas))) with (Q := Q) (B := B') (V := V)
    as (V' & _ & H2 & H3 & H4); auto.
  { apply Forall_forall. intros x X. apply repeat_spec in X as ->. split; [cbn; lia|]. split.
    - constructor; [cbn; lia|]. constructor; [cbn; tauto|constructor].
    - fold E. rewrite He. repeat constructor; lia. }
  { destruct (length deltas); [congruence|discriminate]. }
  { rewrite repeat_length. exact G2. }
  unfold py_augmented_step. cbn [d pd_n pd_edges pd_degree_cost pd_cost]. cbn zeta.
  assert (NE : py_num_edges n = e) by (unfold n; rewrite (num_edges p HE); exact He).
  rewrite NE, E1. unfold n at 1, e at 1, E at 1. rewrite A2. cbn [bind]. rewrite B1. cbn [bind]. rewrite E2, C1. cbn [bind].
  rewrite D1. cbn [bind]. rewrite G1. cbn [bind]. unfold E at 1. rewrite H2. cbn [bind].
  eexists. split; [reflexivity|]. unfold messages_ok. cbn [pm_e2d pm_sub pm_deg_old pm_sub_old pm_deg].
  split; [exists V'; auto|]. split; [exists B'; auto|]. split; [intros X _; exists Q; auto|].
  split; [intros X _; exists B'; auto|]. intros _. exists Q. auto.
Qed.

Definition state_ok (ps : pt_state) : Prop :=
  (exists V, pm_e2d (pt_msgs_of ps) = inj V /\ shape e n V /\ off_zero n E V) /\
  (exists B, pm_sub (pt_msgs_of ps) = inj B /\ shape (length (pt_deltas ps)) e B) /\
  Forall (cut_ok e) (pt_deltas ps).

Lemma round_some ps : state_ok ps -> pt_tour_flag ps = false -> pt_satisfied ps = false -> pt_deltas ps <> [] ->
  exists ps', py_round o d ps = Some (Some ps') /\ state_ok ps'.
Proof.
  intros ((V & E1 & S1 & O1) & (B & E2 & S2) & Hd) Fl Sa Nd. set (deltas := pt_deltas ps) in *.
  assert (L0 : length deltas <> 0) by (destruct deltas; [congruence|discriminate]).
  assert (RS : exists V', (if po_reset o then py_reset E (inj CM) (inj V) else Some (inj V)) = Some (inj V') /\ shape e n V' /\ off_zero n E V').
  { destruct (po_reset o); [|exists V; auto]. exact (reset_off p o cost CM Hn HE He Lcost SCM Ho1 V S1 O1). }
  destruct RS as (V' & RV & SV & OV).
  destruct (for_up_ind 0 (p_iters p) {| pm_e2d := inj V'; pm_deg := pm_deg (pt_msgs_of ps); pm_deg_old := pm_deg_old (pt_msgs_of ps);
      pm_sub := pm_sub (pt_msgs_of ps); pm_sub_old := pm_sub_old (pt_msgs_of ps) |} (py_augmented_step o d deltas) (messages_ok (length deltas)))
    as (pm & R & (V2 & M1 & M2 & M3) & (B2 & M4 & M5) & _ & _ & MQ).
  { lia. }
  { unfold messages_ok. cbn [pm_e2d pm_sub pm_deg_old pm_sub_old pm_deg]. split; [exists V'; auto|]. split; [exists B; auto|].
    repeat split; intros; lia. }
  { intros i s _ X. apply step_some; auto. }
  destruct (MQ Hi) as (Q & Q1 & Q2).
  destruct (extrinsic_augmented_same e n (length deltas) Q B2 (repeat n0 e) Q2 M5 L0 (repeat_length _ _)) as (X & X1 & X2 & LX).
  destruct (extrinsic_augmented_ok e n (length deltas) Q B2 (repeat n0 e) Q2 M5 (repeat_length _ _)) as (x & X3 & Lx & _).
  rewrite X2 in X3. injection X3 as ->.
  destruct (intrinsic_both p o cost Hn He Lcost Ho1 x (repeat n0 e) Lx (repeat_length _ _)) as (y & Y1 & _ & Ly).
  destruct (decision_both p o cost C CM Hn He Lcost Ho1 Ho6 Hthr y Ly) as (sel & c & D1 & _ & _ & D4).
  destruct (analysis_same p d pm (map Fin y) (map (py_hard (p_thr p)) (map Fin y)) sel (Fin c) (pt_tour ps)
     {| a_deltas := deltas; a_tour := []; a_tour_flag := false; a_satisfied := false; a_paths := []; a_sizes := [];
        a_nocons := 0; a_nocons_flag := false |})
    as (ps' & a & A1 & _ & A3 & _); auto.
  { exact (edges_differ p HE). } { rewrite !map_length. cbn. unfold e in He. lia. }
  cbn [a_deltas] in A1.
  assert (PD : forall l, cut_ok e (py_delta (pd_edges d) l)) by (intros l; cbn [d pd_edges]; rewrite <- He; exact (py_delta_ok n E l Hn HE)).
  destruct (py_analysis_all (cut_ok e) d _ _ _ _ _ _ _ _ PD A1 Hd) as (T1 & T2).
  assert (NE : py_num_edges n = e) by (unfold n; rewrite (num_edges p HE); exact He).
  eexists. split.
  - unfold py_round, py_iterate_augmented. fold deltas. rewrite E1. cbn [d pd_edges pd_cm pd_cost pd_n].
    rewrite RV. cbn [bind]. fold d. rewrite Ho1, R. cbn [bind]. rewrite Q1. cbn [bind]. rewrite M4, X1. cbn [bind].
    rewrite Y1. cbn [bind]. unfold d at 1, n at 1, E at 1. rewrite D1. cbn [bind].
    rewrite M1, (finm_no_nan e n (inj V2)), andb_false_r by (exists V2; auto).
    rewrite Fl, Sa, A1. cbn [bind]. rewrite NE. reflexivity.
  - assert (LB : length (pm_sub (pt_msgs_of ps')) = length deltas) by (rewrite A3, M4; unfold inj; rewrite map_length; apply M5).
    assert (DD : pt_deltas (if length (pm_sub (pt_msgs_of ps')) =? length (pt_deltas ps') then ps'
         else set_sub ps' (pm_sub (pt_msgs_of ps') ++ np_zeros (length (pt_deltas ps') - length (pm_sub (pt_msgs_of ps'))) e)) = pt_deltas ps')
      by (destruct (_ =? _); reflexivity).
    split; [|split; rewrite DD; [|exact T1]].
    + exists V2. split; [|auto]. destruct (_ =? _); cbn [set_sub pt_msgs_of pm_e2d]; rewrite A3; exact M1.
    + destruct (Nat.eqb_spec (length (pm_sub (pt_msgs_of ps'))) (length (pt_deltas ps'))) as [Q'|Q'].
      * exists B2. rewrite A3, <- Q', LB. auto.
      * cbn [set_sub pt_msgs_of pm_sub]. rewrite LB, A3, M4.
        destruct (zeros_inj (length (pt_deltas ps') - length deltas) e) as (Z & -> & SZ & _).
        exists (B2 ++ Z). split; [unfold inj; rewrite map_app; reflexivity|].
        destruct M5 as (P1 & P2). destruct SZ as (P3 & P4). split; [rewrite app_length; lia|].
        apply Forall_app; auto.
Qed.
End Raise.
