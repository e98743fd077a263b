(** * KC-MWM front end: properties C30-C33, C52, C53. *)
From Coq Require Import Sorting.Sorted.
From Verif Require Import Num NumFacts Arr ArrFacts Spec M_InOut M_Runs M_Tsp_Run M_Ksat_Py M_Tsp_Post M_Kc_Py SpecKc.
From Verif Require T_Ksat_Py.
From Verif Require Import P_InOut P_Tsp_Run P_Ksat_Py P_Kc_Gen P_Kc_Post P_Kc_Results P_Kc_Call.
Local Open Scope nat_scope.

(** ** C30: hard decisions *)

(** TSP: an edge is selected exactly when its value is not above the threshold (NaN: selected). *)
Theorem C30_tsp : forall thr intr edges,
  length edges = length intr ->
  exists sel, select_edges (length intr) (hard_decision thr intr) edges = Some sel /\
  sel = map snd (filter (fun ve => negb (ngt (fst ve) thr)) (combine intr edges)).
Proof.
  intros thr intr edges L. rewrite (select_ok thr intr edges (length intr)) by auto. eexists. split; [reflexivity|].
  unfold chosen.
  assert (G : forall intr edges s (f : nat -> num) (h : nat -> nat * nat), length edges = length intr ->
    (forall i, i < length intr -> f (s + i) = nth i intr n0 /\ h (s + i) = nth i edges (0, 0)) ->
    map h (filter (fun i => negb (ngt (f i) thr)) (seq s (length intr))) =
    map snd (filter (fun ve : num * (nat * nat) => negb (ngt (fst ve) thr)) (combine intr edges))).
  { clear. induction intr as [|v intr IH]; intros edges s f h L E; destruct edges as [|e edges]; try discriminate; auto.
    cbn [length seq combine filter fst]. destruct (E 0) as [E1 E2]; [cbn; lia|]. rewrite Nat.add_0_r in E1, E2. cbn [nth] in E1, E2.
    assert (X := IH edges (S s) f h). rewrite E1. cbn in L. destruct (negb (ngt v thr)); cbn [map snd]; rewrite X; auto;
      try (intros i Hi; specialize (E (S i)); cbn [nth length] in E; replace (s + S i) with (S s + i) in E by lia; apply E; lia).
    rewrite E2. reflexivity. }
  apply (G intr edges 0 (fun i => nth i intr n0) (fun i => nth i edges (0, 0))); auto.
Qed.
Example C30_tsp_example :
  select_edges 4 (hard_decision n0 [zn 1; n0; zn (-1); NaN]) [(0, 1); (1, 2); (2, 0); (0, 2)]
  = Some [(1, 2); (2, 0); (0, 2)].
Proof. reflexivity. Qed.

(** K-SAT: a used variable is active exactly when its value is not above the threshold. *)
Theorem C30_ksat : forall nv f thr intr,
  consistent nv f -> length intr = nv -> thr <> NaN ->
  exists o, hard_decision_analysis f thr intr = Some o /\
    v_active (k_sum o) = filter (fun v => negb (ngt (nth v intr n0) thr)) (y_used f) /\
    v_inactive (k_sum o) = filter (fun v => ngt (nth v intr n0) thr) (y_used f).
Proof.
  intros nv f thr intr W L Ht. unfold hard_decision_analysis.
  destruct (get_summary_ok nv f (map (py_decide thr) intr) W) as (s & Es & Ea & Ei & _); [rewrite map_length; auto|].
  rewrite Es. cbn [bind]. eexists. split; [reflexivity|]. cbn [k_sum]. rewrite Ea, Ei.
  assert (D : forall v, In v (y_used f) -> truthy (nth v (map (py_decide thr) intr) n0) = negb (ngt (nth v intr n0) thr)).
  { intros v Hv. pose proof (proj1 (Forall_forall _ _) (c_range _ _ W) v Hv) as Hr. cbn in Hr.
    rewrite (nth_indep _ n0 (py_decide thr n0)) by (rewrite map_length; lia). rewrite map_nth.
    set (x := nth v intr n0). unfold py_decide, ngt.
    destruct (nleb x thr) eqn:E1, (nlt thr x) eqn:E2; try reflexivity.
    - exfalso. destruct x, thr; cbn in E1, E2; try discriminate.
      apply negb_true_iff in E1. congruence.
    - destruct x, thr; cbn in E1, E2; try discriminate; try reflexivity; try congruence.
      rewrite E2 in E1. discriminate. }
  split; apply filter_ext_in; intros v Hv; rewrite D; auto. apply negb_involutive.
Qed.
Example C30_ksat_example :
  exists f o, T_Ksat_Py.sample = Some f /\ consistent 4 f /\
    hard_decision_analysis f n0 [zn 1; n0; zn (-1); NaN] = Some o /\
    v_active (k_sum o) = [3; 2; 1] /\ v_inactive (k_sum o) = [0].
Proof.
  destruct T_Ksat_Py.C37_example as (f & _ & _ & Ef & W & _). exists f. eexists.
  split; [auto|]. split; [auto|]. vm_compute in Ef. injection Ef as <-.
  split; [vm_compute; reflexivity|]. split; reflexivity.
Qed.

(** Full statement for KC-MWM: a pair is matched exactly when its value is not above the
    threshold.  False at the threshold itself. *)
Theorem C30_kc_refuted : exists thr A p t v,
  get2 A p t = Some v /\ ngt v thr = false /\ ~ In (p, t) (matching thr A).
Proof. exists n0, [[zn (-1); n0]], 0, 1, n0. split; auto. split; auto. intros [H|[]]. discriminate. Qed.
(** What holds, for thresholds that are not positive: a pair is matched exactly when its value is
    below the threshold.  Missing: equality and NaN (not matched, selected by the other two). *)
Theorem C30_kc_partial : forall thr A p t,
  nle thr n0 -> (In (p, t) (matching thr A) <-> exists v, get2 A p t = Some v /\ nlt v thr = true).
Proof. intros. apply in_matching; auto. Qed.
Example C30_kc_example : nle n0 n0 /\ matching n0 [[zn (-1); n0; zn 2]; [NaN; NInf; zn (-3)]] = [(0, 0); (1, 1); (1, 2)].
Proof. split; [|reflexivity]. apply nle_refl. discriminate. Qed.
(** For a positive threshold (not 1) every value except the threshold and NaN is matched: values
    above it are first replaced by 0, which is then below it. *)
Theorem C30_kc_positive_refuted : forall (thr : Qc) A p t,
  (0 < thr)%Qc -> thr <> 1%Qc ->
  (In (p, t) (matching (Fin thr) A) <-> exists v, get2 A p t = Some v /\ v <> Fin thr /\ v <> NaN).
Proof.
  intros thr A p t Hp H1.
  assert (E0 : nlt n0 (Fin thr) = true).
  { destruct (nlt n0 (Fin thr)) eqn:E; auto. exfalso. apply nlt_false in E; try discriminate. apply nle_Fin in E. exact (Qclt_not_le _ _ Hp E). }
  assert (K : forall v, neqb (kc_decide (Fin thr) v) n1 = true <-> v <> Fin thr /\ v <> NaN).
  { intro v. unfold kc_decide, ngt. destruct (nlt (Fin thr) v) eqn:E1.
    - rewrite E0. split; auto. intros _. split; [intros ->; rewrite nlt_irrefl in E1; discriminate|intros ->; discriminate].
    - destruct (nlt v (Fin thr)) eqn:E2.
      + split; auto. intros _. split; [intros ->; rewrite nlt_irrefl in E2; discriminate|intros ->; discriminate].
      + destruct v as [x| | |]; try discriminate.
        * assert (Fin x = Fin thr) as E by (apply nle_antisym; apply nlt_false; auto; discriminate).
          split; [|tauto]. intro H. apply neqb_eq in H as [H _]. rewrite E in H. injection H as H. exfalso. apply H1. exact H.
        * split; [intro H; discriminate|tauto]. }
  unfold matching. rewrite filter_In, (positions_get2 _ _ _ NaN). cbn [fst snd]. split.
  - intros [E L]. apply K in L. eauto.
  - intros (v & E & L). pose proof E as E'. unfold get2, get in E'. destruct (nth_error A p) as [r|] eqn:Er; [|discriminate].
    cbn [bind] in E'. rewrite (nth_error_nth _ _ _ Er), (nth_error_nth _ _ _ E'). split; auto.
    apply K. auto.
Qed.
Example C30_kc_positive_example :
  matching (zn 2) [[zn 5; zn 2; n0; NaN]] = [(0, 0); (0, 2)].
Proof. reflexivity. Qed.

(** ** C52: pruning of the department pairs *)
Definition dropb (u v : nat) : bool :=
  let kind a b := nth (b - 1) (nth (a - 1) distance_metric_rendezvouz []) 0 in
  let dist a b := nth (b - 1) (nth (a - 1) distance_metric []) 0%Z in
  let sc a b := (nth (a - 1) F_u 0 + nth (b - 1) W_u 0)%Z in
  negb (u =? v) && (kind u v =? kind v u) &&
  (((dist u v =? dist v u)%Z && (sc v u <? sc u v)%Z) || ((sc v u =? sc u v)%Z && (v <? u))).
Lemma prune_table n : n <= 11 -> match prune_teams n with
  | Some cs => forallb (fun u => forallb (fun v => Bool.eqb (edge_mem (u, v) cs) (negb (dropb u v))) (units n)) (units n)
  | None => false end = true.
Proof. intro H. do 12 (destruct n as [|n]; [vm_compute; reflexivity|]). lia. Qed.
(** With up to 11 departments: all pairs of a department with itself are available, and of two
    different departments at least one order; an order is dropped only in favour of the other one,
    by the rule [dropped] on the tables of initializationModule.  With 12 or more departments the
    tables are too small and the call raises. *)
Theorem C52_pruning : forall n,
  (n <= 11 -> exists combos, prune_teams n = Some combos /\
     (forall u v, In (u, v) combos <->
        1 <= u <= n /\ 1 <= v <= n /\
        ~ dropped (fun u => nth (u - 1) F_u 0%Z) (fun v => nth (v - 1) W_u 0%Z)
            (fun u v => nth (v - 1) (nth (u - 1) distance_metric []) 0%Z)
            (fun u v => nth (v - 1) (nth (u - 1) distance_metric_rendezvouz []) 0) u v) /\
     (forall u, 1 <= u <= n -> In (u, u) combos) /\
     (forall u v, 1 <= u <= n -> 1 <= v <= n -> In (u, v) combos \/ In (v, u) combos)) /\
  (12 <= n -> prune_teams n = None).
Proof.
  intro n. split; [|apply prune_too_many]. intro Hn.
  destruct (prune_ok n Hn) as (cs & E & P1 & P2 & P3). pose proof (prune_table n Hn) as T. rewrite E in T.
  exists cs. split; auto. split; [|auto].
  set (kind := fun u v => nth (v - 1) (nth (u - 1) distance_metric_rendezvouz []) 0).
  set (dist := fun u v => nth (v - 1) (nth (u - 1) distance_metric []) 0%Z).
  set (sc := fun a b => (nth (a - 1) F_u 0 + nth (b - 1) W_u 0)%Z).
  assert (DB : forall u v, dropb u v = true <-> dropped (fun u => nth (u - 1) F_u 0%Z) (fun v => nth (v - 1) W_u 0%Z) dist kind u v).
  { intros u v. unfold dropb, dropped, score. fold (kind u v). fold (kind v u). fold (dist u v). fold (dist v u).
    rewrite !andb_true_iff, orb_true_iff, !andb_true_iff, negb_true_iff, Nat.eqb_neq, !Nat.eqb_eq, !Z.eqb_eq, Z.ltb_lt, Nat.ltb_lt.
    tauto. }
  intros u v. rewrite <- DB.
  rewrite forallb_forall in T.
  assert (In_units : forall x, In x (units n) <-> 1 <= x <= n) by (intro x; unfold units; rewrite in_seq; lia).
  assert (K : 1 <= u <= n -> 1 <= v <= n -> (In (u, v) cs <-> ~ dropb u v = true)).
  { intros Hu Hv. apply In_units in Hu, Hv. specialize (T u Hu). rewrite forallb_forall in T. specialize (T v Hv).
    apply Bool.eqb_prop in T. rewrite <- edge_mem_In, T. destruct (dropb u v); cbn; intuition congruence. }
  split.
  - intro H. destruct (P3 _ _ H) as [Hu Hv]. split; auto. split; auto. apply K; auto.
  - intros (Hu & Hv & H). apply K; auto.
Qed.
Example C52_example : prune_teams 5 = Some [(1, 1); (1, 2); (1, 3); (1, 4); (1, 5); (2, 2); (2, 3); (2, 4); (2, 5);
  (3, 3); (3, 4); (3, 5); (4, 4); (4, 5); (5, 1); (5, 2); (5, 3); (5, 4); (5, 5)].
Proof. vm_compute. reflexivity. Qed.

(** ** C31: generated team data *)

Lemma setup caps types o : Forall (fun ty => 1 <= ty <= 5) types -> kc_initialize caps types = Some o ->
  1 <= length caps <= 11 /\ prune_teams (length caps) = Some (o_combos o) /\ o_caps o = caps /\
  (forall b, In b (blocks types (o_combos o)) -> in_range caps b).
Proof.
  intros Ht E.
  assert (L : length caps <= 11).
  { destruct (Nat.lt_ge_cases 11 (length caps)) as [H|H]; auto. exfalso.
    unfold kc_initialize in E. rewrite prune_too_many in E by lia. discriminate. }
  assert (L1 : 1 <= length caps).
  { destruct caps; [vm_compute in E; discriminate|cbn; lia]. }
  destruct (initialize_ok caps types (conj L1 L) Ht) as (combos & Ep & Hr & _).
  pose proof E as E'. unfold kc_initialize in E'. rewrite Ep in E'. cbn [bind] in E'.
  destruct (generate caps types combos) as [[g sums]|]; [|discriminate]. cbn [bind] in E'.
  destruct (get (gen_types g) 0); [|discriminate]. cbn [bind] in E'. injection E' as <-. cbn [o_combos o_caps]. auto.
Qed.
Lemma setup_wf caps types o : Forall (fun ty => 1 <= ty <= 5) types -> kc_initialize caps types = Some o ->
  room caps types (o_combos o) -> wf_obj o (teams_of caps (blocks types (o_combos o))).
Proof.
  intros Ht E Hroom. destruct (setup _ _ _ Ht E) as (HD & Ep & Ec & Hr).
  destruct (initialize_ok caps types HD Ht) as (combos & Ep' & _ & Hi). rewrite Ep in Ep'. injection Ep' as <-.
  destruct (Hi Hroom) as (o' & E' & _ & _ & W). rewrite E in E'. injection E' as <-. auto.
Qed.
Lemma teams_generated caps types o : Forall (fun ty => 1 <= ty <= 5) types -> kc_initialize caps types = Some o ->
  generated caps types (o_combos o) (teams_of caps (blocks types (o_combos o))).
Proof.
  intros Ht E. destruct (setup _ _ _ Ht E) as (_ & _ & _ & Hr). exists (count_fn caps). split; auto.
  intros b Hb. apply count_ok; auto.
Qed.

(** Full statement: every department has one weight per generated team.  False: for one department
    of capacity 1 and the type that takes two members no team is generated, but the department gets
    a weight, larger than its capacity. *)
Theorem C31_aligned_refuted : exists caps types o,
  1 <= length caps <= 11 /\ Forall (fun ty => 1 <= ty <= 5) types /\ kc_initialize caps types = Some o /\
  o_teams o = 0 /\ o_types o = [2] /\ o_weights o = [[2]] /\ caps = [1].
Proof.
  exists [1], [2]. eexists. split; [cbn; lia|]. split; [repeat constructor; lia|]. split; [vm_compute; reflexivity|]. auto.
Qed.
(** The data is aligned exactly when every kind of team that makes sense fits at least once. *)
Theorem C31_aligned_iff : forall caps types o,
  Forall (fun ty => 1 <= ty <= 5) types -> kc_initialize caps types = Some o ->
  ((forall d, 1 <= d <= length caps -> length (nth (d - 1) (o_weights o) []) = o_teams o)
   <-> room caps types (o_combos o)).
Proof.
  intros caps types o Ht E. destruct (setup _ _ _ Ht E) as (HD & Ep & Ec & Hr). split.
  - intros Hl b Hb Hs. pose proof (count_ok caps b (Hr b Hb)) as C.
    destruct (Nat.eq_dec (count_fn caps b) 0) as [E0|E0]; [|eapply team_count_fits; eauto]. exfalso.
    destruct (generate_ok caps (proj2 HD) types (o_combos o)) as (g & Eg & L1 & L2 & Lr & Gw & Gt).
    { apply Forall_forall. intros c Hc. apply Forall_forall. intros ty Hty. apply Hr. apply in_blocks. destruct c; auto. }
    pose proof E as E'. unfold kc_initialize in E'. rewrite Ep in E'. cbn [bind] in E'. rewrite Eg in E'. cbn [bind] in E'.
    destruct (get (gen_types g) 0) as [ty0|]; [|discriminate]. cbn [bind] in E'. injection E' as E'. rewrite <- E' in Hl. cbn [o_weights o_teams] in Hl.
    destruct (Hr b Hb) as (Hu & _). specialize (Hl (t_u b) Hu). rewrite Gw, Lr in Hl by auto.
    assert (Hlt : list_sum (map (count_fn caps) (blocks types (o_combos o))) < length (flat_map (fun b0 => block caps b0 (t_u b)) (blocks types (o_combos o)))).
    { apply in_split in Hb as (l1 & l2 & Eb). rewrite Eb. rewrite map_app, list_sum_app, flat_map_app, app_length.
      cbn [map flat_map]. rewrite app_length.
      assert (G : forall l, list_sum (map (count_fn caps) l) <= length (flat_map (fun b0 => block caps b0 (t_u b)) l)).
      { clear. intro l. induction l as [|x l IH]; [cbn; auto|]. cbn [map flat_map]. rewrite app_length.
        change (list_sum (count_fn caps x :: map (count_fn caps) l)) with (count_fn caps x + list_sum (map (count_fn caps) l)).
        assert (count_fn caps x <= length (block caps x (t_u b))).
        { unfold block. destruct (Nat.eqb_spec (count_fn caps x) 0) as [-> |_]; [lia|]. rewrite repeat_length. auto. }
        lia. }
      pose proof (G l1). pose proof (G l2). change (list_sum (count_fn caps b :: map (count_fn caps) l2)) with (count_fn caps b + list_sum (map (count_fn caps) l2)).
      rewrite (block_length caps b (t_u b)) by (apply Hr; rewrite Eb; apply in_elt). rewrite E0. cbn [Nat.eqb andb].
      replace ((t_u b =? t_v b) || negb (snd (members (t_type b)) =? 0)) with true by (symmetry; apply sensible_b; auto).
      rewrite Nat.eqb_refl. cbn [orb andb]. lia. }
    lia.
  - intros Hroom d Hd. destruct (setup_wf _ _ _ Ht E Hroom) as (-> & _ & _ & W & _).
    rewrite Ec in W. rewrite (nth_error_nth _ _ _ (W d Hd)). apply map_length.
Qed.
(** What holds when everything fits (missing: the other inputs, see above): the teams are, for every
    available pair of departments and every type, as many as fit; weights, types and the lookup of
    the departments of a team agree with this list, and no team alone exceeds a capacity. *)
Theorem C31_aligned_partial : forall caps types o,
  Forall (fun ty => 1 <= ty <= 5) types -> kc_initialize caps types = Some o -> room caps types (o_combos o) ->
  exists teams, generated caps types (o_combos o) teams /\
    o_teams o = length teams /\ o_types o = map t_type teams /\ o_caps o = caps /\
    o_weights o = map (fun d => map (need d) teams) (seq 1 (length caps)) /\
    (forall t x, nth_error teams t = Some x ->
       (loc <- location (o_last o) t ;; get (o_combos o) loc) = Some (t_u x, t_v x)) /\
    (forall t x d, nth_error teams t = Some x -> 1 <= d <= length caps -> need d x <= nth (d - 1) caps 0).
Proof.
  intros caps types o Ht E Hroom. pose proof (setup_wf _ _ _ Ht E Hroom) as (W1 & W2 & W3 & W4 & W5).
  destruct (setup _ _ _ Ht E) as (_ & _ & Ec & _). rewrite Ec in *.
  eexists. split; [apply (teams_generated caps types o Ht E)|]. split; auto. split; auto. split; auto. split; [|split].
  - apply list_ext_get; [rewrite map_length, seq_length; auto|]. intros i Hi. unfold get.
    specialize (W4 (i + 1) ltac:(lia)). replace (i + 1 - 1) with i in W4 by lia. rewrite W4.
    rewrite nth_error_map. rewrite (nth_error_nth' (seq 1 (length caps)) 0) by (rewrite seq_length; lia).
    rewrite seq_nth by lia. cbn [option_map]. rewrite Nat.add_comm. reflexivity.
  - intros t x Hx. destruct (W5 t x Hx) as (_ & _ & _ & loc & El & Ex). rewrite El. exact Ex.
  - intros t x d Hx Hd. destruct (W5 t x Hx) as (_ & _ & F & _). specialize (F d Hd). lia.
Qed.
Definition demo_teams : list team :=
  [(1, 1, 1); (1, 1, 1); (1, 1, 2); (1, 2, 2); (1, 2, 2); (2, 2, 1); (2, 2, 1); (2, 2, 2)].
Lemma demo_room : room [2; 2] [1; 2] [(1, 1); (1, 2); (2, 2)].
Proof.
  intros b Hb Hs d Hd. cbn in Hb, Hd.
  repeat (destruct Hb as [<- |Hb]; [destruct d as [|[|[|d]]]; try lia; cbn; lia|]). destruct Hb.
Qed.
Example C31_example : exists o, kc_initialize [2; 2] [1; 2] = Some o /\ o_combos o = [(1, 1); (1, 2); (2, 2)] /\
  room [2; 2] [1; 2] (o_combos o) /\ o_teams o = 8 /\
  o_weights o = [[1; 1; 2; 1; 1; 0; 0; 0]; [0; 0; 0; 1; 1; 1; 1; 2]] /\ o_types o = [1; 1; 2; 2; 2; 1; 1; 2] /\
  generated [2; 2] [1; 2] (o_combos o) demo_teams.
Proof.
  eexists. split; [vm_compute; reflexivity|]. cbn [o_combos o_teams o_weights o_types].
  split; auto. split; [apply demo_room|]. split; auto. split; auto. split; auto.
  exists (count_fn [2; 2]). split; [|vm_compute; reflexivity].
  intros b Hb. apply count_ok. cbn in Hb. unfold in_range. 
  repeat (destruct Hb as [<- |Hb]; [cbn; lia|]). destruct Hb.
Qed.

(** ** C32, C33: post-processing *)
Lemma ic_total A e : (exists x, get2 A (fst (fst e)) (snd (fst e)) = Some x) ->
  (exists x, get2 A (fst (snd e)) (snd (snd e)) = Some x) -> exists c, ic_choose A e = Some c.
Proof.
  intros (x & G1) (y & G2). unfold ic_choose. cbn [foldM]. rewrite G1. cbn [bind].
  destruct (nlt x (zn 1000000000)); cbn [bind]; rewrite G2; cbn [bind];
    repeat (match goal with |- context [nlt ?a ?b] => destruct (nlt a b) end; cbn [bind]); eauto.
Qed.
Lemma repair_call caps types o P A intr thr opt teams :
  Forall (fun ty => 1 <= ty <= 5) types -> kc_initialize caps types = Some o -> room caps types (o_combos o) ->
  teams = teams_of caps (blocks types (o_combos o)) ->
  shape P (length teams) A -> length intr = length teams -> ~ In NaN intr -> opt = 1 \/ opt = 2 ->
  exists p q, kc_pre_analysis o thr A = Some p /\ kc_post_analysis o true opt A intr p = Some q /\
    p_pairs p = matching thr A /\
    StronglySorted lt (p_sel p) /\ (forall t, In t (p_sel p) <-> exists r, In (r, t) (p_pairs p)) /\
    StronglySorted lt (q_sel q) /\
    removals caps teams
      (if opt =? 1 then removes_1 caps teams (fun t => nth t intr NaN) else removes_2 caps teams (fun t => nth t intr NaN))
      (p_sel p) (q_sel q) /\
    (nle thr n0 -> kc_results o true p q = Some (map (result_of teams A (p_pairs p) true) (q_sel q))) /\
    kc_final_exceeded o q = Some false.
Proof.
  intros Ht E Hroom Et SA Li Hn Hopt. pose proof (setup_wf _ _ _ Ht E Hroom) as wf. rewrite <- Et in wf.
  destruct (setup _ _ _ Ht E) as (_ & _ & Ec & _).
  assert (Fn : Forall notnan intr) by (apply Forall_forall; intros x Hx ->; auto).
  destruct (pre_ok o teams wf thr P A SA) as (p & Ep & Hpp & HL & Hsel & Hx & Hent).
  destruct (post_ok o teams wf true opt A intr p Li Fn (fun _ => Hopt) HL Hx) as (q & Eq & Hi & Hincl & Hlocs & Hic & R).
  { intros _ e He. set (t := snd (fst e)).
    assert (Hf : In e (filter (fun e : (nat * nat) * (nat * nat) => snd (fst e) =? t) (p_entries p))).
    { apply filter_In. split; auto. apply Nat.eqb_refl. }
    destruct (Hent t) as (_ & Ef). rewrite Ef in Hf. destruct (uses (p_pairs p) t) as [|c1 rest] eqn:Eu; [destruct Hf|].
    apply in_map_iff in Hf as (c & <- & Hc).
    assert (K : forall c, In c (c1 :: rest) -> exists x, get2 A (fst c) (snd c) = Some x).
    { intros [r t'] Hin. apply (matching_value thr). rewrite <- Hpp. rewrite <- Eu in Hin. apply filter_In in Hin. tauto. }
    apply ic_total; cbn [fst snd]; apply K; cbn; auto. }
  rewrite Ec in R. exists p, q. split; auto. split; auto. split; auto. split; [apply (li_incr _ _ _ HL)|]. split; auto. split; auto.
  split; auto.
  assert (Fq : Forall (fun t => t < length teams) (q_sel q)).
  { apply Forall_forall. intros t Hq. pose proof (li_lt _ _ _ HL) as F. rewrite Forall_forall in F. apply F, Hincl, Hq. }
  split.
  - intro Hthr. apply results_ok; auto. intros [r t] Hin. rewrite Hpp in Hin. apply in_matching in Hin as (v & Ev & Lv); auto.
    exists v. split; auto. apply nlt_true in Lv. destruct (nlt v (zn 1000000000)) eqn:Eb; auto. exfalso.
    apply nlt_false in Eb; [|eapply nle_notnan_l; eauto|discriminate].
    pose proof (nle_trans _ _ _ Eb (nle_trans _ _ _ Lv Hthr)) as H. apply nle_Fin in H. revert H. vm_compute. auto.
  - destruct (final_ok o teams wf q Fq) as (b & Eb & Hb). rewrite Eb. f_equal. apply Hb. rewrite Ec.
    apply (removals_facts _ _ _ _ _ R).
Qed.

(** C32 (option 1).  For every set of matched pairs (any values, any threshold) post-processing
    returns; the remaining teams are among the selected ones, they are within every capacity, and
    they are what is left after removing, as long as some department is over capacity, the team
    described by [removes_1]; the final report says so. *)
Theorem C32_capacity_repair :
  forall caps types o teams P A intr thr,
    Forall (fun ty => 1 <= ty <= 5) types -> kc_initialize caps types = Some o -> room caps types (o_combos o) ->
    generated caps types (o_combos o) teams ->
    shape P (length teams) A -> length intr = length teams -> ~ In NaN intr ->
    exists p q, kc_pre_analysis o thr A = Some p /\ kc_post_analysis o true 1 A intr p = Some q /\
      (forall t, In t (p_sel p) <-> exists r, In (r, t) (p_pairs p)) /\
      incl (q_sel q) (p_sel p) /\ NoDup (q_sel q) /\
      within_capacity caps teams (q_sel q) /\
      removals caps teams (removes_1 caps teams (fun t => nth t intr NaN)) (p_sel p) (q_sel q) /\
      (within_capacity caps teams (p_sel p) -> q_sel q = p_sel p) /\
      kc_final_exceeded o q = Some false.
Proof.
  intros caps types o teams P A intr thr Ht E Hroom Hg SA Li Hn.
  assert (Et : teams = teams_of caps (blocks types (o_combos o))).
  { destruct (setup _ _ _ Ht E) as (_ & _ & _ & Hr). eapply generated_unique; eauto. }
  destruct (repair_call caps types o P A intr thr 1 teams) as (p & q & E1 & E2 & _ & S1 & S2 & S3 & R & _ & Ef); auto.
  cbn [Nat.eqb] in R.
  exists p, q. split; auto. split; auto. split; auto. destruct (removals_facts _ _ _ _ _ R) as [I1 I2].
  split; auto. split; [apply incr_NoDup; auto|]. split; auto. split; auto. split; auto.
  intro Hw. inversion R as [|? ? ? N _]; subst; auto. contradiction.
Qed.
(** Full statement: only teams of a department that is over capacity are removed.  False: the team is
    looked up by its value among all selected teams, so with equal values a team of another
    department goes.  Here only department 2 is over capacity and team 0 (department 1) is removed
    first, although it never helps. *)
Definition demo_obj : kc_obj := {|
  o_caps := [2; 2]; o_combos := [(1, 1); (1, 2); (2, 2)];
  o_weights := [[1; 1; 2; 1; 1; 0; 0; 0]; [0; 0; 0; 1; 1; 1; 1; 2]];
  o_types := [1; 1; 2; 2; 2; 1; 1; 2]; o_last := [2; 4; 7]%Z; o_teams := 8 |}.
Lemma demo_generated : generated [2; 2] [1; 2] (o_combos demo_obj) demo_teams.
Proof. destruct C31_example as (o & E & _ & _ & _ & _ & _ & G). vm_compute in E. injection E as <-. exact G. Qed.
Theorem C32_only_overfull_refuted :
  exists caps types o teams A intr p q t,
    kc_initialize caps types = Some o /\ room caps types (o_combos o) /\ generated caps types (o_combos o) teams /\
    shape 4 (length teams) A /\ length intr = length teams /\ ~ In NaN intr /\
    kc_pre_analysis o n0 A = Some p /\ kc_post_analysis o true 1 A intr p = Some q /\
    In t (p_sel p) /\ ~ In t (q_sel q) /\
    (forall d, overfull caps teams (p_sel p) d -> need d (nth t teams (0, 0, 0)) = 0).
Proof.
  exists [2; 2], [1; 2], demo_obj, demo_teams,
    [[zn (-1); n0; n0; n0; n0; n0; n0; n0]; [n0; n0; n0; n0; n0; zn (-1); n0; n0];
     [n0; n0; n0; n0; n0; n0; zn (-1); n0]; [n0; n0; n0; n0; n0; n0; n0; zn (-1)]],
    (repeat (zn (-1)) 8).
  do 2 eexists. exists 0. split; [vm_compute; reflexivity|]. split; [apply demo_room|]. split; [apply demo_generated|].
  split; [split; [reflexivity|repeat constructor]|]. split; [reflexivity|].
  split; [intro H; apply repeat_spec in H; discriminate|].
  split; [vm_compute; reflexivity|]. split; [vm_compute; reflexivity|]. cbn [p_sel q_sel].
  split; [cbn; auto|]. split; [intros [H|[]]; discriminate|].
  intros d [Hd Ho]. cbn in Hd. destruct d as [|[|[|d]]]; try lia; [|reflexivity]. exfalso. revert Ho. vm_compute. lia.
Qed.
(** What holds: with pairwise different values every removed team is in the first department over
    capacity and has the largest value of the selected teams of that department. *)
Theorem C32_only_overfull_partial :
  forall caps types o teams P A intr thr p q,
    Forall (fun ty => 1 <= ty <= 5) types -> kc_initialize caps types = Some o -> room caps types (o_combos o) ->
    generated caps types (o_combos o) teams ->
    shape P (length teams) A -> length intr = length teams -> ~ In NaN intr ->
    kc_pre_analysis o thr A = Some p -> kc_post_analysis o true 1 A intr p = Some q ->
    (forall t t', In t (p_sel p) -> In t' (p_sel p) -> nth t intr NaN = nth t' intr NaN -> t = t') ->
    removals caps teams
      (fun sel t => exists d, overfull caps teams sel d /\ (forall d', d' < d -> ~ overfull caps teams sel d') /\
         In t sel /\ in_dept teams d t /\
         forall t1, In t1 sel -> in_dept teams d t1 -> nle (nth t1 intr NaN) (nth t intr NaN))
      (p_sel p) (q_sel q).
Proof.
  intros caps types o teams P A intr thr p q Ht E Hroom Hg SA Li Hn E1 E2 Hinj.
  destruct (C32_capacity_repair caps types o teams P A intr thr) as (p' & q' & E1' & E2' & _ & _ & _ & _ & R & _); auto.
  rewrite E1 in E1'. injection E1' as <-. rewrite E2 in E2'. injection E2' as <-.
  revert Hinj. induction R as [sel H|sel t sel' H1 H2 H3 IH]; intro Hinj; [apply rem_stop; auto|].
  apply rem_more with t; auto.
  - destruct H2 as (d & Hd & Hf & Hin & (t0 & I0 & C0 & V0 & M0) & _). exists d. split; auto. split; auto. split; auto.
    assert (t = t0) as -> by (apply Hinj; auto). split; auto.
  - apply IH. intros a b Ha Hb. apply filter_In in Ha, Hb. apply Hinj; tauto.
Qed.
(** five teams selected; department 1 is over capacity, then department 2 *)
Definition demo_A : list (list num) :=
  [[zn (-1); n0; n0; n0; n0; n0; n0; n0]; [n0; n0; n0; zn (-1); n0; n0; n0; n0];
   [n0; n0; n0; n0; zn (-1); n0; n0; n0]; [n0; n0; n0; n0; n0; zn (-1); n0; n0]].
Definition demo_intr : list num := map zn [-5; 0; 0; -3; -4; -6; 0; 0]%Z.
Example C32_example :
  kc_initialize [2; 2] [1; 2] = Some demo_obj /\ room [2; 2] [1; 2] (o_combos demo_obj) /\
  generated [2; 2] [1; 2] (o_combos demo_obj) demo_teams /\ shape 4 (length demo_teams) demo_A /\ ~ In NaN demo_intr /\
  exists p q, kc_pre_analysis demo_obj n0 demo_A = Some p /\ p_sel p = [0; 3; 4; 5] /\ p_exceeded p = true /\
    kc_post_analysis demo_obj true 1 demo_A demo_intr p = Some q /\ q_sel q = [0; 4; 5] /\
    kc_results demo_obj true p q = Some
      [{| r_u := 1; r_v := 1; r_type := 1; r_teams := [1]; r_projects := [1] |};
       {| r_u := 1; r_v := 2; r_type := 2; r_teams := [5]; r_projects := [3] |};
       {| r_u := 2; r_v := 2; r_type := 1; r_teams := [6]; r_projects := [4] |}].
Proof.
  split; [vm_compute; reflexivity|]. split; [apply demo_room|]. split; [apply demo_generated|].
  split; [split; [reflexivity|repeat constructor]|].
  split; [unfold demo_intr; cbn; intuition discriminate|].
  do 2 eexists. split; [vm_compute; reflexivity|]. split; [reflexivity|]. split; [reflexivity|].
  split; [vm_compute; reflexivity|]. split; vm_compute; reflexivity.
Qed.

(** C33 (option 2).  The same for the other post-processing. *)
Theorem C33_team_repair :
  forall caps types o teams P A intr thr,
    Forall (fun ty => 1 <= ty <= 5) types -> kc_initialize caps types = Some o -> room caps types (o_combos o) ->
    generated caps types (o_combos o) teams ->
    shape P (length teams) A -> length intr = length teams -> ~ In NaN intr ->
    exists p q, kc_pre_analysis o thr A = Some p /\ kc_post_analysis o true 2 A intr p = Some q /\
      (forall t, In t (p_sel p) <-> exists r, In (r, t) (p_pairs p)) /\
      incl (q_sel q) (p_sel p) /\ NoDup (q_sel q) /\
      within_capacity caps teams (q_sel q) /\
      removals caps teams (removes_2 caps teams (fun t => nth t intr NaN)) (p_sel p) (q_sel q) /\
      (within_capacity caps teams (p_sel p) -> q_sel q = p_sel p) /\
      kc_final_exceeded o q = Some false.
Proof.
  intros caps types o teams P A intr thr Ht E Hroom Hg SA Li Hn.
  assert (Et : teams = teams_of caps (blocks types (o_combos o))).
  { destruct (setup _ _ _ Ht E) as (_ & _ & _ & Hr). eapply generated_unique; eauto. }
  destruct (repair_call caps types o P A intr thr 2 teams) as (p & q & E1 & E2 & _ & S1 & S2 & S3 & R & _ & Ef); auto.
  cbn [Nat.eqb] in R.
  exists p, q. split; auto. split; auto. split; auto. destruct (removals_facts _ _ _ _ _ R) as [I1 I2].
  split; auto. split; [apply incr_NoDup; auto|]. split; auto. split; auto. split; auto.
  intro Hw. inversion R as [|? ? ? N _]; subst; auto. contradiction.
Qed.
Example C33_example :
  exists p q, kc_pre_analysis demo_obj n0 demo_A = Some p /\ p_sel p = [0; 3; 4; 5] /\
    kc_post_analysis demo_obj true 2 demo_A demo_intr p = Some q /\ q_sel q = [0; 4; 5].
Proof. do 2 eexists. split; [vm_compute; reflexivity|]. split; [reflexivity|]. split; vm_compute; reflexivity. Qed.

(** Full statement: after post-processing a team that was matched to several projects is reported
    once, with one project, the one of lowest value.  False in two ways.  A team whose kept project is
    matched to another team is reported together with that team; of more than two projects only the
    first two are compared. *)
Theorem C33_one_project_refuted :
  exists A p q, shape 2 (length demo_teams) A /\
    kc_pre_analysis demo_obj n0 A = Some p /\ kc_post_analysis demo_obj true 1 A demo_intr p = Some q /\
    p_pairs p = [(0, 0); (1, 0); (1, 1)] /\
    kc_results demo_obj true p q = Some
      [{| r_u := 1; r_v := 1; r_type := 1; r_teams := [1; 2]; r_projects := [2; 2] |};
       {| r_u := 1; r_v := 1; r_type := 1; r_teams := [2]; r_projects := [2] |}].
Proof.
  exists [[zn (-1); n0; n0; n0; n0; n0; n0; n0]; [zn (-2); zn (-1); n0; n0; n0; n0; n0; n0]]. do 2 eexists.
  split; [split; [reflexivity|repeat constructor]|]. split; [vm_compute; reflexivity|]. split; [vm_compute; reflexivity|].
  split; vm_compute; reflexivity.
Qed.
Theorem C33_lowest_refuted :
  exists A p q, shape 3 (length demo_teams) A /\
    kc_pre_analysis demo_obj n0 A = Some p /\ kc_post_analysis demo_obj true 1 A demo_intr p = Some q /\
    p_pairs p = [(0, 0); (1, 0); (2, 0)] /\ get2 A 1 0 = Some (zn (-2)) /\ get2 A 2 0 = Some (zn (-3)) /\
    kc_results demo_obj true p q = Some [{| r_u := 1; r_v := 1; r_type := 1; r_teams := [1]; r_projects := [2] |}].
Proof.
  exists [[zn (-1); n0; n0; n0; n0; n0; n0; n0]; [zn (-2); n0; n0; n0; n0; n0; n0; n0]; [zn (-3); n0; n0; n0; n0; n0; n0; n0]].
  do 2 eexists.
  split; [split; [reflexivity|repeat constructor]|]. split; [vm_compute; reflexivity|]. split; [vm_compute; reflexivity|].
  split; [vm_compute; reflexivity|]. split; [vm_compute; reflexivity|]. split; vm_compute; reflexivity.
Qed.
(** What holds (either option, threshold at most 0): if no project is matched to two teams, every
    remaining team is reported with its departments, its type and exactly one project it was matched
    to, different teams with different projects; of the first two matched projects it is the one of
    lower value. *)
Lemma filter_nodup (pairs : list (nat * nat)) c : NoDup (map fst pairs) -> In c pairs ->
  filter (fun x => fst x =? fst c) pairs = [c].
Proof.
  induction pairs as [|x pairs IH]; intros N H; [destruct H|]. cbn [map] in N. inversion N as [|? ? N1 N2]; subst.
  cbn [filter]. destruct H as [-> |H].
  - rewrite Nat.eqb_refl. f_equal. clear -N1. induction pairs as [|y pairs IH]; auto. cbn [filter map In] in *.
    destruct (Nat.eqb_spec (fst y) (fst c)) as [E|E]; [exfalso; auto|]. apply IH. auto.
  - destruct (Nat.eqb_spec (fst x) (fst c)) as [E|E]; [|auto]. exfalso. apply N1. rewrite E. apply in_map, H.
Qed.
Lemma nodup_map_inj (f : nat -> nat) l : (forall a b, In a l -> In b l -> f a = f b -> a = b) -> NoDup l -> NoDup (map f l).
Proof.
  intros H N. induction N as [|x l Hx N IH]; [constructor|]. cbn [map]. constructor.
  - intro Hin. apply in_map_iff in Hin as (y & Ey & Hy). apply Hx. rewrite <- (H y x); cbn; auto.
  - apply IH. intros; apply H; cbn; auto.
Qed.
Theorem C33_one_project_partial :
  forall caps types o teams P A intr thr opt,
    Forall (fun ty => 1 <= ty <= 5) types -> kc_initialize caps types = Some o -> room caps types (o_combos o) ->
    generated caps types (o_combos o) teams ->
    shape P (length teams) A -> length intr = length teams -> ~ In NaN intr -> opt = 1 \/ opt = 2 -> nle thr n0 ->
    exists p q, kc_pre_analysis o thr A = Some p /\ kc_post_analysis o true opt A intr p = Some q /\
      (NoDup (map fst (p_pairs p)) ->
       exists proj, NoDup (map proj (q_sel q)) /\
         kc_results o true p q = Some (map (fun t =>
           {| r_u := u_of teams t; r_v := v_of teams t; r_type := t_type (nth t teams (0, 0, 0));
              r_teams := [t + 1]; r_projects := [proj t + 1] |}) (q_sel q)) /\
         forall t, In t (q_sel q) -> In (proj t, t) (p_pairs p) /\
           forall c1 c2 rest, filter (fun c => snd c =? t) (p_pairs p) = c1 :: c2 :: rest ->
             (proj t = fst c1 \/ proj t = fst c2) /\
             nle (nth t (nth (proj t) A []) NaN) (nth t (nth (fst c1) A []) NaN) /\
             nle (nth t (nth (proj t) A []) NaN) (nth t (nth (fst c2) A []) NaN)).
Proof.
  intros caps types o teams P A intr thr opt Ht E Hroom Hg SA Li Hn Hopt Hthr.
  assert (Et : teams = teams_of caps (blocks types (o_combos o))).
  { destruct (setup _ _ _ Ht E) as (_ & _ & _ & Hr). eapply generated_unique; eauto. }
  destruct (repair_call caps types o P A intr thr opt teams) as (p & q & E1 & E2 & Hpp & S1 & S2 & S3 & R & Hres & _); auto.
  exists p, q. split; auto. split; auto. intro HN. specialize (Hres Hthr).
  destruct (removals_facts _ _ _ _ _ R) as [Hincl _].
  set (pick := fun t => match uses (p_pairs p) t with
     | c1 :: c2 :: _ => lower_use A c1 c2 | c1 :: _ => c1 | [] => (0, t) end).
  assert (Hu : forall t c, In c (uses (p_pairs p) t) <-> In c (p_pairs p) /\ snd c = t).
  { intros t c. unfold uses. rewrite filter_In, Nat.eqb_eq. tauto. }
  assert (Hlow : forall c1 c2, lower_use A c1 c2 = c1 \/ lower_use A c1 c2 = c2).
  { intros. unfold lower_use. destruct (nlt _ _); auto. }
  assert (Hpick : forall t, In t (q_sel q) -> In (pick t) (p_pairs p) /\ snd (pick t) = t).
  { intros t Hq. apply Hincl, S2 in Hq as (r & Hr). apply Hu. unfold pick.
    destruct (uses (p_pairs p) t) as [|c1 [|c2 rest]] eqn:Eu.
    - exfalso. cut (In (r, t) (uses (p_pairs p) t)); [rewrite Eu; auto|]. apply Hu. auto.
    - cbn; auto.
    - destruct (Hlow c1 c2) as [-> | ->]; cbn; auto. }
  assert (Hrep : forall t, In t (q_sel q) -> reported A (p_pairs p) true t = [pick t]).
  { intros t Hq. destruct (Hpick t Hq) as [Hp _]. revert Hp. unfold reported, pick.
    pose proof (Hpick t Hq) as [_ _]. apply Hincl, S2 in Hq as (r & Hr).
    destruct (uses (p_pairs p) t) as [|c1 [|c2 rest]] eqn:Eu; intro Hp; auto.
    - exfalso. cut (In (r, t) (uses (p_pairs p) t)); [rewrite Eu; auto|]. apply Hu. auto.
    - apply filter_nodup; auto. }
  exists (fun t => fst (pick t)). split; [|split].
  - apply nodup_map_inj; [|apply incr_NoDup; auto]. intros a b Ha Hb Eab.
    destruct (Hpick a Ha) as [Pa Sa]. destruct (Hpick b Hb) as [Pb Sb].
    pose proof (filter_nodup _ _ HN Pa) as Fa. pose proof (filter_nodup _ _ HN Pb) as Fb. rewrite Eab in Fa. rewrite Fa in Fb.
    injection Fb as Fb. congruence.
  - rewrite Hres. f_equal. apply map_ext_in. intros t Hq. unfold result_of. rewrite Hrep by auto. cbn [map].
    destruct (Hpick t Hq) as [_ ->]. reflexivity.
  - intros t Hq. destruct (Hpick t Hq) as [Hp Hs]. split; [rewrite <- Hs at 2; rewrite <- surjective_pairing; auto|].
    intros c1 c2 rest Eu. change (uses (p_pairs p) t = c1 :: c2 :: rest) in Eu.
    assert (K : forall c, In c (c1 :: c2 :: rest) -> snd c = t /\
       nth (snd c) (nth (fst c) A []) n0 = nth t (nth (fst c) A []) NaN /\ notnan (nth t (nth (fst c) A []) NaN)).
    { intros c Hc. rewrite <- Eu in Hc. apply Hu in Hc as [Hc Ec]. split; auto. destruct c as [r t']. cbn [fst snd] in *. subst t'.
      rewrite Hpp in Hc. apply in_matching in Hc as (v & Ev & Lv); auto. unfold get2, get in Ev.
      destruct (nth_error A r) as [row|] eqn:Er; [|discriminate]. cbn [bind] in Ev.
      rewrite (nth_error_nth _ _ _ Er), !(nth_error_nth _ _ _ Ev). split; auto. eapply nle_notnan_l, nlt_true; eauto. }
    destruct (K c1) as (T1 & V1 & N1); [cbn; auto|]. destruct (K c2) as (T2 & V2 & N2); [cbn; auto|].
    unfold pick. rewrite Eu. unfold lower_use. cbn zeta. rewrite V1, V2.
    destruct (nlt (nth t (nth (fst c1) A []) NaN) (nth t (nth (fst c2) A []) NaN)) eqn:El.
    + split; auto. split; [apply nle_refl; auto|apply nlt_true; auto].
    + split; auto. split; [apply nlt_false; auto|apply nle_refl; auto].
Qed.
Example C33_one_project_example :
  exists p q, let A := [[zn (-1); n0; n0; n0; n0; n0; n0; n0]; [zn (-2); n0; n0; n0; n0; n0; n0; n0];
                        [n0; n0; n0; n0; n0; n0; n0; zn (-1)]] in
    shape 3 (length demo_teams) A /\
    kc_pre_analysis demo_obj n0 A = Some p /\ kc_post_analysis demo_obj true 1 A demo_intr p = Some q /\
    p_pairs p = [(0, 0); (1, 0); (2, 7)] /\ NoDup (map fst (p_pairs p)) /\
    kc_results demo_obj true p q = Some
      [{| r_u := 1; r_v := 1; r_type := 1; r_teams := [1]; r_projects := [2] |};
       {| r_u := 2; r_v := 2; r_type := 2; r_teams := [8]; r_projects := [3] |}].
Proof.
  do 2 eexists. cbn zeta.
  split; [split; [reflexivity|repeat constructor]|]. split; [vm_compute; reflexivity|]. split; [vm_compute; reflexivity|].
  split; [vm_compute; reflexivity|]. split; [|vm_compute; reflexivity]. vm_compute. repeat constructor; cbn; intuition discriminate.
Qed.

(** ** C53: a complete KC-MWM call *)

(** For every problem with finite rewards in which every kind of team fits, the call (initialize,
    iterate, pre_analysis, post_analysis with the results) returns.  The matched pairs are those
    whose intrinsic value returned by the C++ code is below the threshold; the reported teams are the
    teams of matched pairs, reduced as in C32/C33 until they are within every capacity, with their
    departments and type. *)
Theorem C53_kc_call :
  forall iters flag (alpha : Qc) thr pp opt caps types (rt : list Qc) (rp : list (list Qc)) P o teams,
    Forall (fun ty => 1 <= ty <= 5) types -> types <> [] ->
    kc_initialize caps types = Some o -> room caps types (o_combos o) -> generated caps types (o_combos o) teams ->
    nle thr n0 -> (pp = true -> opt = 1 \/ opt = 2) ->
    length rt = length teams -> shape (length teams) P rp ->
    exists a (ext intr : list Qc),
      kc_call iters flag (Fin alpha) thr pp opt caps types (map Fin rt) (inj rp) = Some a /\ a_obj a = o /\
      wrapper_kc_mwm iters (length caps) (length teams) P
        (concat (py_team_messages (o_weights o) (map Fin rt))) caps (map Fin rt)
        (concat (transpose P (inj rp))) (concat (o_weights o)) (concat (py_pad (py_nonzero (o_weights o))))
        (map (@length nat) (py_nonzero (o_weights o))) (list_max (map (@length nat) (py_nonzero (o_weights o))))
        flag (Fin alpha) = Some (map Fin ext, map Fin intr) /\
      length ext = length teams /\ length intr = P * length teams /\
      (forall p t, In (p, t) (p_pairs (a_pre a)) <->
         p < P /\ t < length teams /\ nlt (Fin (nth (length teams * p + t) intr 0%Qc)) thr = true) /\
      (forall t, In t (p_sel (a_pre a)) <-> exists p, In (p, t) (p_pairs (a_pre a))) /\
      NoDup (q_sel (a_post a)) /\
      (pp = false -> q_sel (a_post a) = p_sel (a_pre a)) /\
      (pp = true -> within_capacity caps teams (q_sel (a_post a)) /\
         removals caps teams
           (if opt =? 1 then removes_1 caps teams (fun t => nth t (zip_with nadd (map Fin ext) (map Fin rt)) NaN)
            else removes_2 caps teams (fun t => nth t (zip_with nadd (map Fin ext) (map Fin rt)) NaN))
           (p_sel (a_pre a)) (q_sel (a_post a))) /\
      a_results a = map (fun t =>
        let r := reported (map (fun p => map (fun t => Fin (nth (length teams * p + t) intr 0%Qc)) (seq 0 (length teams))) (seq 0 P))
                   (p_pairs (a_pre a)) pp t in
        {| r_u := u_of teams t; r_v := v_of teams t; r_type := t_type (nth t teams (0, 0, 0));
           r_teams := map (fun c => snd c + 1) r; r_projects := map (fun c => fst c + 1) r |}) (q_sel (a_post a)) /\
      (exists b, kc_final_exceeded o (a_post a) = Some b /\ (b = false <-> within_capacity caps teams (q_sel (a_post a)))).
Proof.
  intros iters flag alpha thr pp opt caps types rt rp P o teams Ht Hne E Hroom Hg Hthr Hopt Lr Sr.
  destruct (setup _ _ _ Ht E) as (HD & Ep & Ec & Hr).
  assert (Et : teams = teams_of caps (blocks types (o_combos o))) by (eapply generated_unique; eauto).
  rewrite Et in *.
  destruct (call_ok iters flag alpha thr pp opt caps types rt rp P (o_combos o)) as
    (o' & p & q & ext & intr & Ecall & Ei & Eo & Eco & wf & Ew & Lx & Li & Hpp & Hsel & Hi & Hlt & Hiq & Hincl & Hq & Hfin); auto.
  rewrite E in Ei. injection Ei as <-.
  rewrite <- Et in *. eexists. exists ext, intr. split; [apply Ecall|]. cbn [a_obj a_pre a_post a_results].
  assert (Lm : length (map Fin intr) = P * length teams) by (rewrite map_length; auto).
  assert (EA : reshape P (length teams) (map Fin intr) =
     map (fun p => map (fun t => Fin (nth (length teams * p + t) intr 0%Qc)) (seq 0 (length teams))) (seq 0 P)).
  { apply (shape_ext P (length teams)).
    - apply reshape_shape; auto.
    - split; [rewrite map_length, seq_length; auto|]. apply Forall_map, Forall_forall. intros; rewrite map_length, seq_length; auto.
    - intros i j Hi' Hj. rewrite (reshape_nth _ _ _ _ _ (Fin 0%Qc)) by auto. rewrite map_nth. unfold get2, get.
      rewrite nth_error_map, (nth_error_nth' (seq 0 P) 0) by (rewrite seq_length; auto). cbn [option_map bind].
      rewrite seq_nth by auto. rewrite nth_error_map, (nth_error_nth' (seq 0 (length teams)) 0) by (rewrite seq_length; auto).
      cbn [option_map]. rewrite seq_nth by auto. reflexivity. }
  split; auto. split; auto. split; auto. split; auto. split; [|split; [auto|split; [apply incr_NoDup; auto|]]].
  - intros r t. rewrite Hpp, in_matching by auto. split.
    + intros (v & Ev & Lv). assert (Hrt : r < P /\ t < length teams).
      { destruct (reshape_shape P (length teams) (map Fin intr) Lm) as [La Fa]. unfold get2, get in Ev.
        destruct (nth_error _ r) as [row|] eqn:Er; [|discriminate]. cbn [bind] in Ev. split.
        - rewrite <- La. apply nth_error_Some. congruence.
        - rewrite Forall_forall in Fa. rewrite <- (Fa row) by (eapply nth_error_In; eauto). apply nth_error_Some. congruence. }
      destruct Hrt as [Hr1 Ht1]. rewrite (reshape_nth _ _ _ _ _ (Fin 0%Qc)) in Ev by auto. rewrite map_nth in Ev.
      injection Ev as <-. auto.
    + intros (Hr1 & Ht1 & Lv). exists (Fin (nth (length teams * r + t) intr 0%Qc)). split; auto.
      rewrite (reshape_nth _ _ _ _ _ (Fin 0%Qc)) by auto. rewrite map_nth. auto.
  - split; [intros ->; auto|]. split; [|split; [|auto]].
    + intros ->. split; auto. apply (removals_facts _ _ _ _ _ Hq).
    + rewrite EA. reflexivity.
Qed.
(** two departments of capacity 2, types 1 and 2 (eight teams), two projects, three iterations *)
Example C53_example :
  let rt := map (fun z => Q2Qc (inject_Z z)) [-9; -8; -12; -11; -10; -7; -9; -13]%Z in
  let rp := map (map (fun z => Q2Qc (inject_Z z))) [[1; 4]; [2; 3]; [5; 1]; [2; 2]; [6; 1]; [3; 3]; [1; 2]; [4; 2]]%Z in
  kc_initialize [2; 2] [1; 2] = Some demo_obj /\ length rt = length demo_teams /\ shape (length demo_teams) 2 rp /\
  option_map (fun a => (p_pairs (a_pre a), q_sel (a_post a), a_results a))
    (kc_call 3 true (Fin (Q2Qc (1#2))) n0 true 1 [2; 2] [1; 2] (map Fin rt) (inj rp)) =
  Some ([(0, 0); (1, 6)], [0; 6],
    [{| r_u := 1; r_v := 1; r_type := 1; r_teams := [1]; r_projects := [1] |};
     {| r_u := 2; r_v := 2; r_type := 1; r_teams := [7]; r_projects := [2] |}]).
Proof.
  cbn zeta. split; [vm_compute; reflexivity|]. split; [reflexivity|]. split; [split; [reflexivity|repeat constructor]|].
  vm_compute. reflexivity.
Qed.

Print Assumptions C30_tsp.
Print Assumptions C30_ksat.
Print Assumptions C30_kc_refuted.
Print Assumptions C30_kc_partial.
Print Assumptions C30_kc_positive_refuted.
Print Assumptions C52_pruning.
Print Assumptions C31_aligned_refuted.
Print Assumptions C31_aligned_iff.
Print Assumptions C31_aligned_partial.
Print Assumptions C32_capacity_repair.
Print Assumptions C32_only_overfull_refuted.
Print Assumptions C32_only_overfull_partial.
Print Assumptions C33_team_repair.
Print Assumptions C33_one_project_refuted.
Print Assumptions C33_lowest_refuted.
Print Assumptions C33_one_project_partial.
Print Assumptions C53_kc_call.
