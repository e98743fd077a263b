(** * Property C105: when the pure Python TSP solver raises an exception. *)
From Verif Require Import Num NumFacts Arr ArrFacts Spec SpecGraph M_InOut M_Runs P_Schedule P_Tsp_Sched M_Tsp_Loops M_Tsp_Run P_Tsp_Run.
From Verif Require Import M_Tsp_Py P_Tsp_Py M_PyRef M_PyRef_Run M_PyRef_Tsp P_PyRef_Tsp P_PyRef_Raise T_Tsp_Call T_PyRef_Tsp T_PyRef_Exit T_PyRef_Loop.
Local Open Scope nat_scope.

Lemma rounds_some (I : pt_state -> Prop) o d :
  (forall ps, I ps -> pt_tour_flag ps = false -> pt_satisfied ps = false -> pt_deltas ps <> [] ->
     exists ps', py_round o d ps = Some (Some ps') /\ I ps') ->
  forall k ps, I ps -> (forall j q, j < k -> py_rounds j o d ps = Some (PyRunning q) -> pt_deltas q <> []) ->
    py_rounds k o d ps <> None.
Proof.
  intros HR. induction k as [|k IH]; intros ps Hi H.
  - cbn [py_rounds]. destruct (_ && _ && _); discriminate.
  - pose proof (H 0 ps (Nat.lt_0_succ k)) as H0. cbn [py_rounds] in *.
    destruct (negb (pt_satisfied ps) && po_aug o && negb (pt_tour_flag ps)) eqn:B; [|discriminate].
    destruct (HR ps Hi) as (ps' & R & I'); [destruct (pt_tour_flag ps); [rewrite andb_false_r in B; discriminate|reflexivity]
      |destruct (pt_satisfied ps); [discriminate|reflexivity]|exact (H0 eq_refl)|].
    rewrite R. cbn [bind]. apply IH; [exact I'|]. intros j q Hj Q. apply (H (S j) q); [lia|].
    cbn [py_rounds]. rewrite B, R. exact Q.
Qed.
Lemma rounds_stop o d j k ps q : py_rounds j o d ps = Some (PyRunning q) -> py_round o d q = None -> j < k ->
  py_rounds k o d ps = None.
Proof.
  intros H R Hj. replace k with (j + S (k - j - 1)) by lia. rewrite (rounds_split _ _ _ _ _ _ H).
  pose proof (rounds_split _ _ _ 0 _ _ H) as X. rewrite Nat.add_0_r, H in X. cbn [py_rounds] in *.
  destruct (_ && _ && _); [|discriminate]. rewrite R. reflexivity.
Qed.

(** no iterations, or filtering with [alpha = 0] *)
Definition bad_settings (o : tsp_options) : Prop := q_iters o = 0 \/ (q_filt o = true /\ q_alpha o = n0).
(** after [j] rounds the run goes on although no constraint has been found yet *)
Definition nothing_found (o : tsp_options) (n : nat) (C : list (list Qc)) (j : nat) : Prop :=
  exists q, reference o n C j = Some (PyRunning q) /\ pt_deltas q = [].
Lemma complete_edges p : complete (p_n p) (tsp_edges (p_in p)) -> py_num_edges (p_n p) = length (tsp_edges (p_in p)).
Proof. intros H. symmetry. exact (complete_length _ _ H). Qed.

(** A run raises an exception within [k] rounds exactly for bad settings, or if one of the rounds
    starts without any constraint. *)
Theorem C105_raises : forall k o n C a, 3 <= n -> cost_matrix_ok n C -> q_alpha o = Fin a -> is_nan (q_thr o) = false ->
  (reference o n C k = None <-> bad_settings o \/ exists j, j < k /\ nothing_found o n C j).
Proof.
  intros k o n C a Hn HC Ha Ht.
  destruct (call_pieces o n C HC) as (p & M & Ep & Ei & En & Ee & EE & Ec & Em & Ed & Ee2 & SM & OM & O1 & O2 & O3 & O4 & O5 & O6 & O7 & O8).
  assert (Co : complete (p_n p) (tsp_edges (p_in p))) by (rewrite En, EE; apply py_edges_complete, HC).
  set (cost := map (fun e => qat C (fst e) (snd e)) (tsp_edges (p_in p))) in *.
  assert (Lc : length cost = p_e p) by (unfold cost; rewrite map_length; auto).
  assert (F : forall j, reference o n C j = py_reference_from p (ref_opts o) cost M C j).
  { intros j. unfold reference, py_tsp_reference. rewrite Ei. cbn [bind pd_degree_cost]. unfold py_reference_from, py_start.
    rewrite En. reflexivity. }
  set (d := {| pd_n := p_n p; pd_cm := inj C; pd_edges := tsp_edges (p_in p); pd_cost := map Fin cost; pd_degree_cost := inj M |}).
  assert (BAD : bad_settings o -> forall j, reference o n C j = None).
  { intros B j. rewrite F. unfold py_reference_from, py_start. fold d. destruct (py_iterate_relaxed _ _ _) as [x|] eqn:X; [|reflexivity].
    exfalso. destruct (relaxed_settings _ _ _ _ X) as (S1 & S2). cbn [ref_opts po_iters po_filt po_alpha] in S1, S2.
    destruct B as [B|(B1 & B2)]; [lia|exact (S2 B1 B2)]. }
  assert (DEC : bad_settings o \/ (0 < q_iters o /\ (q_filt o = true -> a <> 0%Qc))).
  { destruct (Nat.eq_dec (q_iters o) 0) as [Z|Z]; [left; left; exact Z|]. destruct (q_filt o) eqn:Q.
    - destruct (Qc_eq_dec a 0%Qc) as [-> |N]; [left; right; split; [exact Q|exact Ha]|right; split; [lia|auto]].
    - right. split; [lia|discriminate]. }
  destruct DEC as [B|(Hi & Hal)]; [split; [auto|intros _; exact (BAD B k)]|].
  rewrite <- O1 in Hi. rewrite <- O4 in Hal. rewrite <- En in Hn. rewrite <- O5 in Ha. rewrite <- O6 in Ht.
  assert (SC : shape (p_n p) (p_n p) C) by (rewrite En; apply HC).
  destruct (first_stage_same p (ref_opts o) a cost M C Hn Co (eq_sym Ee) Ha Ec Lc Ed SM OM Em SC
     (eq_sym O1) (eq_sym O4) (eq_sym O5) (eq_sym O6) Hal Ht O8 Ee2 Hi)
    as (m & intr & dec & ps & st & E1 & E2 & E3 & E4 & K & M1 & M2 & M3 & M4 & M5 & _).
  fold d in E1, E2, E3.
  set (ps0 := if negb (pt_satisfied ps) && po_aug (ref_opts o) then set_sub ps (np_zeros (length (pt_deltas ps)) (py_num_edges (p_n p))) else ps).
  assert (F0 : forall j, reference o n C j = py_rounds j (ref_opts o) d ps0).
  { intros j. rewrite F. unfold py_reference_from, py_start. fold d. rewrite E1; cbn [bind]. rewrite E2; cbn [bind]. rewrite E3; cbn [bind]. reflexivity. }
  split.
  2:{ intros [B|(j & Hj & q & Q1 & Q2)]; [exact (BAD B k)|]. rewrite F0 in *. eapply rounds_stop; [exact Q1| |exact Hj].
    exact (py_round_empty p (ref_opts o) cost M C Hn (eq_sym Ee) Lc (eq_sym O1) (eq_sym O4) q Hi Q2). }
  intros R. right.
  assert (DEC : (exists j, j < k /\ nothing_found o n C j) \/
       (forall j q, j < k -> py_rounds j (ref_opts o) d ps0 = Some (PyRunning q) -> pt_deltas q <> [])).
  { clear R. induction k as [|k IH]; [right; intros; lia|]. destruct IH as [(j & Hj & X)|IH]; [left; exists j; split; [lia|exact X]|].
    destruct (py_rounds k (ref_opts o) d ps0) as [[q| |q]|] eqn:X.
    1,2,4: right; intros j q' Hj Q; destruct (Nat.eq_dec j k) as [-> |N]; [congruence|apply (IH j); [lia|exact Q]].
    destruct (pt_deltas q) as [|x l] eqn:D.
    - left. exists k. split; [lia|]. exists q. rewrite F0. auto.
    - right. intros j q' Hj Q. destruct (Nat.eq_dec j k) as [-> |N]; [|apply (IH j); [lia|exact Q]].
      rewrite X in Q. injection Q as <-. congruence. }
  destruct DEC as [DEC|DEC]; [exact DEC|exfalso]. rewrite F0 in R. revert R.
  destruct (po_aug (ref_opts o)) eqn:Oa.
  2:{ destruct k; cbn [py_rounds]; rewrite Oa, andb_false_r; discriminate. }
  apply (rounds_some (fun x => pt_satisfied x = true \/ state_ok p x)); [| |exact DEC].
  - intros x [Ix|Ix] X1 X2 X3; [congruence|].
    destruct (round_some p (ref_opts o) a cost M C Hn Co (eq_sym Ee) Ha Lc SM OM SC
        (eq_sym O1) (eq_sym O4) (eq_sym O5) (eq_sym O6) Hal Ht O8 Hi x Ix X1 X2 X3) as (x' & Y & Z).
    exists x'. auto.
  - unfold ps0. rewrite ?Oa, andb_true_r. destruct (pt_satisfied ps) eqn:Sa; cbn [negb]; [left; exact Sa|right].
    destruct K as ((S0 & ((F1 & _) & _) & _) & _). apply finm_unm in F1 as (U1 & U2). split; [|split]; cbn [set_sub pt_msgs_of pm_e2d pm_sub pt_deltas].
    + exists (unm (m_e2d (t_msgs st))). rewrite M1. auto.
    + rewrite (complete_edges p Co), Ee. destruct (zeros_inj (length (pt_deltas ps)) (p_e p)) as (Z & Z1 & Z2 & _). exists Z. rewrite <- Ee in *. auto.
    + assert (PD : forall l, cut_ok (p_e p) (py_delta (pd_edges d) l)) by (intros l; rewrite Ee; cbn [d pd_edges]; exact (py_delta_ok (p_n p) _ l Hn Co)).
      exact (proj1 (py_analysis_all (cut_ok (p_e p)) d _ _ _ _ _ _ _ _ PD E3 (Forall_nil _))).
Qed.

Lemma round_grows o d ps ps' : py_round o d ps = Some (Some ps') -> incl (pt_deltas ps) (pt_deltas ps').
Proof.
  unfold py_round. destruct (py_iterate_augmented _ _ _ _) as [(m & intr)|]; cbn [bind]; [|discriminate].
  destruct (py_hard_decision _ _ _) as [dec|]; cbn [bind]; [|discriminate]. destruct (_ && _); [discriminate|].
  destruct (py_analysis _ _ _ _ _ _ _ _) as [q|] eqn:A; cbn [bind]; [|discriminate]. intros X; injection X as <-.
  assert (Y : incl (pt_deltas ps) (pt_deltas q)).
  { clear -A. revert A. unfold py_analysis. destruct dec as ((hds & sel) & c).
    destruct (py_get_closed_loops sel) as [[|l ls]|]; cbn [bind]; [| |discriminate].
    { intros X; injection X as <-. apply incl_refl. }
    destruct (_ && _).
    - destruct (get l 0); cbn [bind]; [|discriminate]. intros X; injection X as <-. apply incl_refl.
    - match goal with |- context [foldM ?f ?l (pt_deltas ps)] => destruct (foldM f l (pt_deltas ps)) as [ds'|] eqn:F end; cbn [bind]; [|discriminate].
      intros X; injection X as <-. cbn [pt_deltas]. revert F. generalize (pt_deltas ps). generalize (l :: ls).
      intros loops; induction loops as [|l0 loops IH]; cbn [foldM]; intros ds F; [injection F as <-; apply incl_refl|].
      destruct (py_indices (pd_edges d) l0) as [idx|]; [|discriminate]. cbn [bind] in F.
      destruct (np_take hds idx); [|discriminate]. cbn [bind] in F. apply IH in F.
      destruct (existsb _ ds); [exact F|]. intros x Hx. apply F, in_or_app. auto. }
  destruct (_ =? _); exact Y.
Qed.
Lemma rounds_grow o d : forall j ps q, py_rounds j o d ps = Some (PyRunning q) ->
  py_rounds 0 o d ps = Some (PyRunning ps) /\ incl (pt_deltas ps) (pt_deltas q).
Proof.
  induction j as [|j IH]; intros ps q; cbn [py_rounds]; destruct (_ && _ && _) eqn:B; try discriminate.
  - intros X; injection X as <-. split; [reflexivity|apply incl_refl].
  - destruct (py_round o d ps) as [[r|]|] eqn:R; cbn [bind]; try discriminate. intros X.
    split; [reflexivity|]. eapply incl_tran; [exact (round_grows _ _ _ _ R)|]. exact (proj2 (IH _ _ X)).
Qed.

(** Constraints are kept, so the first stage decides: a run with good settings raises an exception
    exactly if it does a round and the first stage has found no constraint. *)
Theorem C105_first : forall k o n C a, 3 <= n -> cost_matrix_ok n C -> q_alpha o = Fin a -> is_nan (q_thr o) = false ->
  (reference o n C k = None <-> bad_settings o \/ (0 < k /\ nothing_found o n C 0)).
Proof.
  intros k o n C a Hn HC Ha Ht. rewrite (C105_raises k o n C a Hn HC Ha Ht). split; (intros [B|H]; [left; exact B|right]).
  - destruct H as (j & Hj & q & Q1 & Q2). split; [lia|]. unfold nothing_found, reference, py_tsp_reference in *.
    destruct (py_tsp_initialize n (inj C)) as [d|]; cbn [bind] in *; [|discriminate].
    destruct (py_iterate_relaxed _ _ _) as [(m & intr)|]; cbn [bind] in *; [|discriminate].
    destruct (py_hard_decision _ _ _) as [dec|]; cbn [bind] in *; [|discriminate].
    destruct (py_analysis _ _ _ _ _ _ _ _) as [st|]; cbn [bind] in *; [|discriminate].
    destruct (rounds_grow _ _ _ _ _ Q1) as (G1 & G2). eexists. split; [exact G1|]. rewrite Q2 in G2. apply incl_l_nil in G2. exact G2.
  - destruct H as (Hk & H). exists 0. auto.
Qed.

(** No loop among the selected edges: the first stage finds no constraint and the first round raises. *)
Example C105_example :
  3 <= 4 /\ cost_matrix_ok 4 cm4 /\ is_nan (q_thr few_edges) = false /\ ~ bad_settings few_edges /\
  nothing_found few_edges 4 cm4 0 /\ reference few_edges 4 cm4 1 = None.
Proof.
  split; [lia|]. split; [exact cm4_ok|]. split; [reflexivity|].
  split; [intros [B|(B & _)]; vm_compute in B; discriminate|]. split; [|vm_compute; reflexivity].
  unfold nothing_found. match goal with |- exists q, ?x = _ /\ _ => let y := eval vm_compute in x in match y with Some (PyRunning ?s) => exists s end end.
  split; vm_compute; reflexivity.
Qed.
(** a run without exceptions *)
Example C105_fine_example : ~ bad_settings (opt 4 true 20 7) /\ exists q, reference (opt 4 true 20 7) 4 cm4 5 = Some (PyDone q).
Proof.
  split.
  - intros [B|(_ & B)]; vm_compute in B; discriminate.
  - match goal with |- exists q, ?x = _ => let y := eval vm_compute in x in match y with Some (PyDone ?s) => exists s end end.
    vm_compute; reflexivity.
Qed.
(** All edges are selected, so a loop through all cities is one of several and gives an empty
    constraint; the next round works with it. *)
Definition all_edges : tsp_options :=
  {| q_iters := 1; q_aug := true; q_reset := true; q_filt := false; q_alpha := n0; q_thr := PInf;
     q_max_count := 20; q_max_augm := 3 |}.
Example C105_empty_example :
  (exists q, reference all_edges 3 [[0; 1; 1]; [1; 0; 1]; [1; 1; 0]]%Qc 0 = Some (PyRunning q) /\ In [] (pt_deltas q)) /\
  reference all_edges 3 [[0; 1; 1]; [1; 0; 1]; [1; 1; 0]]%Qc 2 <> None.
Proof.
  split; [|vm_compute; discriminate].
  match goal with |- exists q, ?x = _ /\ _ => let y := eval vm_compute in x in match y with Some (PyRunning ?s) => exists s end end.
  split; [vm_compute; reflexivity|]. cbn [pt_deltas In]. tauto.
Qed.

Print Assumptions C105_raises.
Print Assumptions C105_first.
