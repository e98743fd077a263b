(** * Property C78: settled TSP messages give locally cheapest cycle covers. *)
From Coq Require Import Permutation.
From Verif Require Import Num NumFacts Arr ArrFacts Spec SpecRun SpecGraph SpecCover SpecSettled MinSum MinSumFacts P_Settled.
From Verif Require Import P_Tsp_Constraints M_InOut P_InOut M_Tsp_Loops P_Tsp_Loops T_Tsp_Loops M_Tsp_Run P_Tsp_Run P_Tsp_Fin.
From Verif Require Import M_Tsp_Py P_Tsp_Py T_Tsp_Run T_Tsp_Call T_Tsp_Sched P_Tsp_Order T_Tsp_Order.
From Verif Require Import P_Ksat P_PyRef_Ksat P_Assign P_Tsp_Assign P_Tsp_Settled T_Tsp_Assign.
Local Open Scope nat_scope.

Lemma occurs_iff v l : occurs v l = true <-> In v l.
Proof.
  unfold occurs. rewrite existsb_exists. split.
  - intros (z & I & Q). apply Nat.eqb_eq in Q. now subst.
  - intro I. exists v. split; [exact I|apply Nat.eqb_refl].
Qed.
Lemma in_holding D i k : In k (holding D i) <-> exists d, nth_error D k = Some d /\ In i d.
Proof.
  unfold holding. rewrite filter_In, in_seq, occurs_iff. split.
  - intros (Hk & I). exists (nth k D []). split; [apply nth_error_nth'; lia|exact I].
  - intros (d & G & I). rewrite (nth_error_nth _ _ _ G). split; [|exact I]. assert (k < length D) by (apply nth_error_Some; congruence). lia.
Qed.

Lemma filtered_same flag a d d' t : (forall r, r <= t -> d r = d' r) -> filtered flag a d t = filtered flag a d' t.
Proof.
  intro H. unfold filtered. destruct (flag && negb (Qc_eq_bool a 0)); [|apply H; auto]. f_equal. apply map_ext_in.
  intros i I. apply in_seq in I. rewrite H; auto. lia.
Qed.

(** The schedule determines the messages. *)
Section Unique.
Variables (n : nat) (E : list (nat * nat)) (C : list (list Qc)) (D : list (list nat)) (flag : bool) (alpha : Qc).
Hypothesis Hbound : forall i u v, nth_error E i = Some (u, v) -> u < n /\ v < n.
Hypothesis HD : forall d, In d D -> forall i, In i d -> i < length E.
Definition same_ends (f g : nat -> nat -> Qc) : Prop :=
  forall i u v, nth_error E i = Some (u, v) -> f i u = g i u /\ f i v = g i v.
Definition same_subs (f g : nat -> nat -> Qc) : Prop :=
  forall k d i, nth_error D k = Some d -> In i d -> f k i = g k i.
Lemma tour_messages_unique V0 B0 V Dg M B ES SD V0' B0' V' Dg' M' B' ES' SD' :
  tour_messages n E C D flag alpha V0 B0 V Dg M B ES SD -> tour_messages n E C D flag alpha V0' B0' V' Dg' M' B' ES' SD' ->
  same_ends V0 V0' -> same_subs B0 B0' ->
  forall t, same_ends (V t) (V' t) /\ same_ends (Dg t) (Dg' t) /\ same_ends (M t) (M' t) /\
    same_subs (B t) (B' t) /\ same_subs (ES t) (ES' t) /\ same_subs (SD t) (SD' t).
Proof.
  intros (A1 & A2 & A3) (A1' & A2' & A3') EV EB.
  assert (SDg : forall t, same_ends (V t) (V' t) -> same_ends (Dg t) (Dg' t)).
  { intros t S i u v G. destruct (Hbound i u v G) as (Hu & Hv). split.
    - assert (I : In i (from_node E u)) by (apply in_from; eauto). destruct (In_nth_error _ _ I) as (pos & P).
      pose proof (proj1 (proj1 (A3 t) u Hu) pos i P) as Q. pose proof (proj1 (proj1 (A3' t) u Hu) pos i P) as Q'.
      assert (Em : map (fun i => V t i u) (from_node E u) = map (fun i => V' t i u) (from_node E u)).
      { apply map_ext_in. intros j J. apply in_from in J as (w & Gj). exact (proj1 (S j u w Gj)). }
      rewrite Em in Q. pose proof (minsum_message_unique _ _ _ _ _ Q Q') as R. now injection R.
    - assert (I : In i (into_node E v)) by (apply in_into; eauto). destruct (In_nth_error _ _ I) as (pos & P).
      pose proof (proj2 (proj1 (A3 t) v Hv) pos i P) as Q. pose proof (proj2 (proj1 (A3' t) v Hv) pos i P) as Q'.
      assert (Em : map (fun i => V t i v) (into_node E v) = map (fun i => V' t i v) (into_node E v)).
      { apply map_ext_in. intros j J. apply in_into in J as (w & Gj). exact (proj2 (S j w v Gj)). }
      rewrite Em in Q. pose proof (minsum_message_unique _ _ _ _ _ Q Q') as R. now injection R. }
  assert (SM : forall t, (forall r, r <= t -> same_ends (Dg r) (Dg' r)) -> same_ends (M t) (M' t)).
  { intros t S i u v G. destruct (A3 t) as (_ & Q & _). destruct (A3' t) as (_ & Q' & _).
    destruct (Q i u v G) as (R1 & R2 & _). destruct (Q' i u v G) as (R1' & R2' & _). rewrite R1, R2, R1', R2'.
    split; apply filtered_same; intros r Hr; apply (S r Hr i u v G). }
  assert (SES : forall t, same_ends (M t) (M' t) -> same_subs (B t) (B' t) -> same_subs (ES t) (ES' t)).
  { intros t S T k d i Gk I. assert (Hi : i < length E) by (apply (HD d); [eapply nth_error_In; eauto|exact I]).
    destruct (nth_error E i) as [(u, v)|] eqn:G; [|apply nth_error_None in G; lia].
    destruct (A3 t) as (_ & _ & Q & _). destruct (A3' t) as (_ & _ & Q' & _).
    rewrite (Q k d i u v Gk I G), (Q' k d i u v Gk I G). destruct (S i u v G) as (-> & ->). f_equal.
    apply sum_ext. intros k' I'. unfold others in I'. apply filter_In in I' as (I' & _). apply in_holding in I' as (d' & Gk' & J). exact (T k' d' i Gk' J). }
  assert (SSD : forall t, same_subs (ES t) (ES' t) -> same_subs (SD t) (SD' t)).
  { intros t S k d i Gk I. destruct (In_nth_error _ _ I) as (pos & P).
    destruct (A3 t) as (_ & _ & _ & Q). destruct (A3' t) as (_ & _ & _ & Q').
    destruct (Q k d pos i Gk P) as (R & _). destruct (Q' k d pos i Gk P) as (R' & _).
    assert (Em : map (ES t k) d = map (ES' t k) d) by (apply map_ext_in; intros j J; exact (S k d j Gk J)).
    rewrite Em in R. pose proof (minsum_message_unique _ _ _ _ _ R R') as Z. now injection Z. }
  assert (SB : forall t, (forall r, r <= t -> same_subs (SD r) (SD' r)) -> same_subs (B (t + 1)) (B' (t + 1))).
  { intros t S k d i Gk I. destruct (In_nth_error _ _ I) as (pos & P).
    destruct (A3 t) as (_ & _ & _ & Q). destruct (A3' t) as (_ & _ & _ & Q').
    destruct (Q k d pos i Gk P) as (_ & R). destruct (Q' k d pos i Gk P) as (_ & R'). rewrite R, R'.
    apply filtered_same. intros r Hr. exact (S r Hr k d i Gk I). }
  assert (SV : forall t, same_ends (M t) (M' t) -> same_subs (B (t + 1)) (B' (t + 1)) -> same_ends (V (t + 1)) (V' (t + 1))).
  { intros t S T i u v G. destruct (A3 t) as (_ & Q & _). destruct (A3' t) as (_ & Q' & _).
    destruct (Q i u v G) as (_ & _ & R1 & R2). destruct (Q' i u v G) as (_ & _ & R1' & R2'). rewrite R1, R2, R1', R2'.
    destruct (S i u v G) as (-> & ->).
    assert (Es : qsum (map (fun k => B (t + 1) k i) (holding D i)) = qsum (map (fun k => B' (t + 1) k i) (holding D i))).
    { apply sum_ext. intros k I. apply in_holding in I as (d & Gk & J). exact (T k d i Gk J). }
    rewrite Es. auto. }
  set (all := fun t => same_ends (V t) (V' t) /\ same_ends (Dg t) (Dg' t) /\ same_ends (M t) (M' t) /\
    same_subs (B t) (B' t) /\ same_subs (ES t) (ES' t) /\ same_subs (SD t) (SD' t)).
  assert (Up : forall t, (forall r, r < t -> all r) -> same_ends (V t) (V' t) -> same_subs (B t) (B' t) -> all t).
  { intros t P SVt SBt. pose proof (SDg t SVt) as SDt.
    assert (SMt : same_ends (M t) (M' t)).
    { apply SM. intros r Hr. destruct (Nat.eq_dec r t) as [->|N]; [exact SDt|]. apply P. lia. }
    pose proof (SES t SMt SBt) as SEt. pose proof (SSD t SEt) as SSt. exact (conj SVt (conj SDt (conj SMt (conj SBt (conj SEt SSt))))). }
  intro t. cut (forall r, r <= t -> all r); [intro H; apply H; auto|]. induction t as [|t IH]; intros r Hr.
  - assert (r = 0) by lia. subst r. apply Up; [lia| |].
    + intros i u v G. destruct (A1 i u v G) as (-> & ->). destruct (A1' i u v G) as (-> & ->). exact (EV i u v G).
    + intros k d i G I. rewrite (A2 k d i G I), (A2' k d i G I). exact (EB k d i G I).
  - destruct (Nat.eq_dec r (S t)) as [->|N]; [|apply IH; lia].
    assert (SBt : same_subs (B (t + 1)) (B' (t + 1))) by (apply SB; intros r Hr'; apply IH; lia).
    rewrite Nat.add_1_r in SBt. apply Up; [intros r Hr'; apply IH; lia| |exact SBt].
    rewrite <- Nat.add_1_r. apply SV; [apply IH; lia|]. rewrite Nat.add_1_r. exact SBt.
Qed.
End Unique.

(** The selection of any stage. *)
Lemma history_selection o n C ord p st l : cost_matrix_ok n C ->
  py_call o n (inj C) ord = Some p -> history p (st :: l) ->
  NoDup (r_selected (t_sol st)) /\ r_cost (t_sol st) = Fin (edges_cost C (r_selected (t_sol st))) /\
  forall u v, In (u, v) (r_selected (t_sol st)) <->
    exists i y, nth_error (tsp_edges (p_in p)) i = Some (u, v) /\ nth_error (r_intr (t_sol st)) i = Some y /\ ngt y (q_thr o) = false.
Proof.
  intros HC Hp H.
  destruct (py_call_full o n C ord p HC Hp)
    as (DC & En & Co & L & Ec & Em & Ed & Ee & SM & Ea & Ef & Ei & Er & Eo & HM).
  assert (Et : p_thr p = q_thr o).
  { destruct (py_call_ok o n C ord HC) as (p' & M' & A & _ & _ & _ & _ & _ & _ & _ & _ & _ & _ & T & _).
    rewrite Hp in A. injection A as <-. exact T. }
  set (E := tsp_edges (p_in p)) in *. set (cost := map (fun e => qat C (fst e) (snd e)) E) in *.
  assert (Lc : length cost = p_e p) by (unfold cost; rewrite map_length; exact L).
  destruct (history_open _ _ _ H) as (_ & (D1 & D2) & _).
  pose proof (history_intr _ _ _ H) as Li.
  rewrite (select_ok _ _ _ _ Li L) in D1. injection D1 as D1.
  rewrite Ec in D2. rewrite (cost_ok _ _ _ _ Li Lc) in D2. injection D2 as D2.
  rewrite <- D1, <- D2. fold E. set (ch := chosen (p_thr p) (r_intr (t_sol st))).
  assert (Hch : forall i, In i ch -> i < length E).
  { intros i I. unfold ch, chosen in I. apply filter_In in I as (I & _). apply in_seq in I. lia. }
  assert (Nch : NoDup ch) by (apply NoDup_filter, seq_NoDup).
  split; [|split].
  - clear - Hch Nch Co. induction ch as [|x r IH]; cbn [map]; [constructor|].
    inversion Nch as [|? ? N1 N2]; subst. constructor; [|apply IH; auto; intros; apply Hch; now right].
    intros I. apply in_map_iff in I as (y & Q & I). apply N1.
    replace x with y; [exact I|]. apply (proj1 (NoDup_nth E (0, 0)) (proj1 Co)); [apply Hch; now right|apply Hch; now left|exact Q].
  - f_equal. unfold edges_cost. rewrite map_map. f_equal. apply map_ext_in. intros i I. specialize (Hch i I).
    unfold cost. destruct (nth_error E i) as [(u, v)|] eqn:G; [|apply nth_error_None in G; lia].
    rewrite (cost_nth C E i u v G), (nth_error_nth _ _ _ G). reflexivity.
  - intros u v. rewrite in_map_iff. split.
    + intros (i & Q & I). pose proof (Hch i I) as Hi. unfold ch, chosen in I. apply filter_In in I as (_ & I).
      destruct (nth_error (r_intr (t_sol st)) i) as [y|] eqn:Y; [|apply nth_error_None in Y; lia].
      rewrite (nth_error_nth _ _ _ Y) in I. apply negb_true_iff in I. rewrite Et in I.
      exists i, y. split; [|auto]. rewrite <- Q. apply nth_error_nth'. exact Hi.
    + intros (i & y & G & Y & B). exists i. split; [exact (nth_error_nth _ _ _ G)|].
      unfold ch, chosen. apply filter_In. split.
      * apply in_seq. rewrite Li, <- L. assert (i < length E) by (apply nth_error_Some; congruence). lia.
      * rewrite (nth_error_nth _ _ _ Y), Et, B. reflexivity.
Qed.

(** What a stage starts from: [V0] the messages from edges to nodes, [B0] those from the constraints. *)
Definition starts (o : tsp_options) (C : list (list Qc)) (E : list (nat * nat)) (st : tsp_state) (V0 B0 : nat -> nat -> Qc) : Prop :=
  (forall i u v, nth_error E i = Some (u, v) ->
     if q_reset o then V0 i u = qat C u v /\ V0 i v = qat C u v
     else get2 (m_e2d (t_msgs st)) i u = Some (Fin (V0 i u)) /\ get2 (m_e2d (t_msgs st)) i v = Some (Fin (V0 i v))) /\
  (forall k i, i < length E -> match get2 (m_sub (t_msgs st)) k i with Some b => b = Fin (B0 k i) | None => B0 k i = 0%Qc end).

Lemma deltas_ok o n C ord p st l : cost_matrix_ok n C -> (forall l, Permutation (ord l) l) ->
  py_call o n (inj C) ord = Some p -> history p (st :: l) ->
  forall d, In d (a_deltas (t_an st)) -> d <> [] /\ NoDup d /\ forall i, In i d -> i < length (tsp_edges (p_in p)).
Proof.
  intros HC Po Hp H d Id. destruct (py_call_full o n C ord p HC Hp) as (DC & En & Co & L & Ec & Em & Ed & Ee & SM & Ea & Ef & Ei & Er & Eo & _).
  rewrite <- Eo in Po. destruct (C20_constraints p st l Po H) as (_ & Q & _). destruct (Q d Id) as (Nd & Inc & s & lp & _ & _ & _ & Hl).
  split; [exact Nd|]. split.
  - apply NoDup_nth_error. intros i j Hi QQ.
    destruct (nth_error d i) as [x|] eqn:Gi; [|apply nth_error_None in Gi; lia]. symmetry in QQ.
    destruct (Nat.lt_trichotomy i j) as [W|[W|W]]; auto; exfalso; [specialize (Inc i j x x W Gi QQ)|specialize (Inc j i x x W QQ Gi)]; lia.
  - intros i I. apply Hl in I as (u & v & G & _). apply nth_error_Some. congruence.
Qed.

Lemma round_messages o n C ord p st st' l a : 3 <= n -> cost_matrix_ok n C -> q_alpha o = Fin a ->
  (forall l, Permutation (ord l) l) -> py_call o n (inj C) ord = Some p -> history p (st' :: st :: l) ->
  let E := tsp_edges (p_in p) in
  let D := a_deltas (t_an st) in
  exists V0 B0 V Dg M B ES SD, starts o C E st V0 B0 /\
    tour_messages n E C D (q_filt o) a V0 B0 V Dg M B ES SD /\
    forall i u v, nth_error E i = Some (u, v) -> 0 < q_iters o ->
      nth_error (r_intr (t_sol st')) i = Some (Fin (qat C u v + M (q_iters o - 1)%nat i u + M (q_iters o - 1)%nat i v +
        qsum (map (fun k => B (q_iters o) k i) (holding D i)))%Qc).
Proof.
  intros Hn HC Ha Po Hp H E D.
  destruct (C51_round o n C ord p st st' l a Hn HC Ha Po Hp H) as (V & Dg & M & B & ES & SD & A1 & A2 & A3 & A4 & _ & A6).
  fold E D in A1, A2, A3, A4, A6.
  assert (Hold : forall t i, i < length E -> qsum (map (fun s => qat (B t) s i) (seq 0 (length D))) = qsum (map (fun k => qat (B t) k i) (holding D i))).
  { intros t i Hi. unfold holding. rewrite sum_filter. apply sum_ext. intros k Ik. apply in_seq in Ik.
    destruct (occurs i (nth k D [])) eqn:Q; auto. apply (A4 t k (nth k D [])); auto; [apply nth_error_nth'; lia|].
    intro I. apply occurs_iff in I. congruence. }
  assert (Hold' : forall t i k, i < length E -> qsum (map (fun s => qat (B t) s i) (others k (seq 0 (length D)))) = qsum (map (fun k' => qat (B t) k' i) (others k (holding D i)))).
  { intros t i k Hi. unfold holding. rewrite <- filter_swap_others, sum_filter. apply sum_ext. intros k' Ik. unfold others in Ik. apply filter_In in Ik as (Ik & _). apply in_seq in Ik.
    destruct (occurs i (nth k' D [])) eqn:Q; auto. apply (A4 t k' (nth k' D [])); auto; [apply nth_error_nth'; lia|].
    intro I. apply occurs_iff in I. congruence. }
  assert (Lt : forall i u v, nth_error E i = Some (u, v) -> i < length E) by (intros i u v G; apply nth_error_Some; congruence).
  exists (qat (V 0)), (qat (B 0)), (fun t => qat (V t)), (fun t => qat (Dg t)), (fun t => qat (M t)), (fun t => qat (B t)), (fun t => qat (ES t)), (fun t => qat (SD t)).
  split; [split; [exact A1|exact A2]|]. split.
  - split; [auto|]. split; [auto|]. intro t. destruct (A3 t) as (P1 & P2 & P3 & P4). split; [exact P1|]. split; [|split].
    + intros i u v G. destruct (P2 i u v G) as (Q1 & Q2 & Q3 & Q4). rewrite Hold in Q3, Q4 by eauto. auto.
    + intros k d i u v Gk I G. rewrite (P3 k d i u v Gk I G), Hold' by eauto. reflexivity.
    + exact P4.
  - intros i u v G Hpos. destruct (A6 i u v G) as (_ & _ & x & _ & Q & X). rewrite Q, (X Hpos), Hold by eauto. f_equal. f_equal. ring.
Qed.
Lemma first_messages o n C ord p st a : 3 <= n -> cost_matrix_ok n C -> q_alpha o = Fin a ->
  (forall l, Permutation (ord l) l) -> py_call o n (inj C) ord = Some p -> iterate_relaxed p (tsp_init p) = Some st ->
  let E := tsp_edges (p_in p) in
  exists V0 B0 V Dg M B ES SD, (forall i u v, nth_error E i = Some (u, v) -> V0 i u = qat C u v /\ V0 i v = qat C u v) /\
    tour_messages n E C [] (q_filt o) a V0 B0 V Dg M B ES SD /\
    forall i u v, nth_error E i = Some (u, v) -> 0 < q_iters o ->
      nth_error (r_intr (t_sol st)) i = Some (Fin (qat C u v + M (q_iters o - 1)%nat i u + M (q_iters o - 1)%nat i v +
        qsum (map (fun k => B (q_iters o) k i) (holding [] i)))%Qc).
Proof.
  intros Hn HC Ha Po Hp R E. destruct (C51_first_stage o n C ord p st a Hn HC Ha Po Hp R) as (V & Dg & M & A1 & A2 & A3). fold E in A1, A2, A3.
  set (Z := fun (_ _ _ : nat) => 0%Qc).
  exists (qat (V 0)), (Z 0), (fun t => qat (V t)), (fun t => qat (Dg t)), (fun t => qat (M t)), Z, Z, Z. split; [exact A1|]. split.
  - split; [auto|]. split; [auto|]. intro t. destruct (A2 t) as (P1 & P2). split; [exact P1|]. split; [|split].
    + intros i u v G. destruct (P2 i u v G) as (Q1 & Q2 & Q3 & Q4). split; [exact Q1|]. split; [exact Q2|]. rewrite Q3, Q4. cbn. split; ring.
    + intros k d i u v Gk. destruct k; discriminate.
    + intros k d pos i Gk. destruct k; discriminate.
  - intros i u v G Hpos. destruct (A3 i u v G) as (_ & _ & x & _ & Q & X). rewrite Q, (X Hpos). cbn. f_equal. f_equal. ring.
Qed.

(** the argument for both kinds of stages *)
Lemma stage_settled o n C ord p st l a th D V0 B0 V Dg M B ES SD bel e e2 g :
  3 <= n -> cost_matrix_ok n C -> q_alpha o = Fin a -> q_thr o = Fin th ->
  py_call o n (inj C) ord = Some p -> history p (st :: l) -> 0 < q_iters o ->
  let E := tsp_edges (p_in p) in
  let T := q_iters o in
  (forall d, In d D -> d <> [] /\ NoDup d /\ forall i, In i d -> i < length E) ->
  tour_messages n E C D (q_filt o) a V0 B0 V Dg M B ES SD ->
  (forall i u v, nth_error E i = Some (u, v) ->
      nth_error (r_intr (t_sol st)) i = Some (Fin (qat C u v + M (T - 1)%nat i u + M (T - 1)%nat i v + qsum (map (fun k => B T k i) (holding D i)))%Qc)) ->
  r_intr (t_sol st) = map Fin bel ->
  (0 <= e)%Qc -> (0 <= e2)%Qc -> (e <= g)%Qc -> close g th 0 ->
  (forall i, i < length E -> (nth i bel 0 < - g \/ g < nth i bel 0)%Qc) ->
  (forall i u v, nth_error E i = Some (u, v) ->
     supports e (nth i bel 0%Qc) (Dg T i u) (M (T - 1) i u) /\ supports e (nth i bel 0%Qc) (Dg T i v) (M (T - 1) i v)) ->
  (forall k d i, nth_error D k = Some d -> In i d ->
     supports e (nth i bel 0%Qc) (ES (T - 1)%nat k i + SD (T - 1)%nat k i)%Qc (nth i bel 0%Qc) /\
     supports e2 (nth i bel 0%Qc) (nth i bel 0%Qc) (ES (T - 1)%nat k i + B T k i)%Qc) ->
  exists s, cover n s /\ Permutation (r_selected (t_sol st)) (cover_edges s) /\ r_cost (t_sol st) = Fin (cover_cost C s) /\
    crosses E D s /\
    forall s' K, cover n s' ->
      (forall k d, nth_error D k = Some d -> K k = false -> (exists i, In i d /\ covered E s' i = true) /\ one_exchange E d s s') ->
      (cover_cost C s + charge E D (B T) K s <= cover_cost C s' + charge E D (B T) K s' +
         qn (length (filter (swapped E s s') (seq 0 (length E)))) * (qn (1 + length D) * e + qn (2 + length D) * e2))%Qc.
Proof.
  intros Hn HC Ha Ht Hp H Hpos E T HD HM HI Hbel He He2 Heg Hth Hg Hx Hy.
  destruct (py_call_full o n C ord p HC Hp) as (DC & En & Co & L & _). rewrite En in Co. fold E in Co, L.
  set (b := fun i => nth i bel 0%Qc).
  assert (Hb : forall i u v, nth_error E i = Some (u, v) ->
    b i = (qat C u v + M (T - 1)%nat i u + M (T - 1)%nat i v + qsum (map (fun k => B T k i) (holding D i)))%Qc).
  { intros i u v G. specialize (HI i u v G). rewrite Hbel, nth_error_map in HI. destruct (nth_error bel i) as [q|] eqn:Q; [|discriminate].
    cbn [option_map] in HI. injection HI as HI. unfold b. now rewrite (nth_error_nth _ _ _ Q). }
  destruct HM as (_ & _ & HM).
  assert (ET : T - 1 + 1 = T) by (unfold T; lia).
  assert (HV : forall i u v, nth_error E i = Some (u, v) -> V T i u = (b i - M (T - 1)%nat i u)%Qc /\ V T i v = (b i - M (T - 1)%nat i v)%Qc).
  { intros i u v G. destruct (HM (T - 1)) as (_ & Q & _). destruct (Q i u v G) as (_ & _ & Q1 & Q2). rewrite ET in Q1, Q2.
    rewrite (Hb i u v G), Q1, Q2. split; ring. }
  destruct (settled_cover n E C D ltac:(lia) Co HD (V T) (Dg T) (M (T - 1)) (ES (T - 1)) (SD (T - 1)) (B T) b e e2)
    as (s & Cs & Xs & Ds & Opt); auto.
  - intros k d i Gk I. apply (Hy k d i Gk I).
  - destruct (HM T) as (Q & _). exact Q.
  - intros k d pos i Gk P. destruct (HM (T - 1)) as (_ & _ & _ & Q). apply (Q k d pos i Gk P).
  - intros k d i Gk I. apply (Hy k d i Gk I).
  - intros i Hi. unfold b. destruct (Hg i Hi); [left|right]; qlra.
  - destruct (history_selection o n C ord p st l HC Hp H) as (Nsel & Csel & Isel).
    assert (P : Permutation (r_selected (t_sol st)) (cover_edges s)).
    { apply NoDup_Permutation; [exact Nsel| |].
      - apply (NoDup_map_inv fst). rewrite cover_edges_map, map_map. cbn [fst]. rewrite map_id. apply seq_NoDup.
      - assert (Dec : forall i u v, nth_error E i = Some (u, v) -> (ngt (Fin (b i)) (q_thr o) = false <-> v = nth u s 0)).
        { intros i u v G. assert (Hi : i < length E) by (apply nth_error_Some; congruence). rewrite <- Nat.eqb_eq, <- (covered_at E s i u v G), (Ds i Hi), Ht.
          change (ngt (Fin (b i)) (Fin th)) with (qltb th (b i)). unfold b. destruct Hth as (T1 & T2).
          destruct (qltb_spec th (nth i bel 0%Qc)) as [A|A]; destruct (qltb_spec (nth i bel 0%Qc) 0%Qc) as [B'|B']; destruct (Hg i Hi); split; intro Z; try reflexivity; try discriminate; qlra. }
        intros (u, v). rewrite Isel, (in_cover_edges n) by auto. split.
        + intros (i & y & G & Y & Z). fold E in G. assert (Hi : i < length E) by (apply nth_error_Some; congruence).
          assert (y = Fin (b i)) as ->.
          { rewrite Hbel, nth_error_map in Y. destruct (nth_error bel i) as [q|] eqn:Q; [|discriminate]. injection Y as <-. unfold b. now rewrite (nth_error_nth _ _ _ Q). }
          apply (Dec i u v G) in Z. split; [|exact Z]. apply (edge_ends n E Co i u v G).
        + intros (Hu & ->). assert (Hv : nth u s 0 < n /\ nth u s 0 <> u) by (split; [eapply (sg_lt n s)|eapply (sg_neq n s)]; eauto).
          assert (G : nth_error E (pos_of E u (nth u s 0)) = Some (u, nth u s 0)) by (apply pos_of_ok, (proj2 Co); lia).
          exists (pos_of E u (nth u s 0)), (Fin (b (pos_of E u (nth u s 0)))). split; [exact G|]. split; [|apply (Dec _ _ _ G); reflexivity].
          specialize (HI _ _ _ G). rewrite HI, (Hb _ _ _ G). reflexivity. }
    exists s. split; [exact Cs|]. split; [exact P|]. split; [rewrite Csel; f_equal; apply edges_cost_perm, P|]. split; [exact Xs|].
    intros s' K Cs' HK. specialize (Opt s' K Cs' HK). rewrite sum_const in Opt. exact Opt.
Qed.

Lemma covered_few n E s : complete n E -> cover n s -> length (filter (covered E s) (seq 0 (length E))) <= n.
Proof.
  intros Co Cs. rewrite <- (cover_length n s Cs) at 1. replace (length s) with (length (cover_edges s)) by (rewrite cover_edges_map, map_length, seq_length; reflexivity).
  rewrite <- (map_length (fun i => nth i E (0, 0))). apply NoDup_incl_length.
  - assert (Hf : forall i, In i (filter (covered E s) (seq 0 (length E))) -> i < length E) by (intros i I; apply filter_In in I as (I & _); apply in_seq in I; lia).
    assert (Nf : NoDup (filter (covered E s) (seq 0 (length E)))) by apply NoDup_filter, seq_NoDup.
    revert Hf Nf. generalize (filter (covered E s) (seq 0 (length E))). intros l Hf Nf. induction l as [|x r IH]; cbn [map]; [constructor|].
    inversion Nf as [|? ? N1 N2]; subst. constructor; [|apply IH; auto; intros; apply Hf; now right].
    intros I. apply in_map_iff in I as (y & Q & I). apply N1. replace x with y; [exact I|].
    apply (proj1 (NoDup_nth E (0, 0)) (proj1 Co)); [apply Hf; now right|apply Hf; now left|exact Q].
  - intros (u, v) I. apply in_map_iff in I as (i & Q & I). apply filter_In in I as (I & Hc). apply in_seq in I.
    assert (G : nth_error E i = Some (u, v)) by (rewrite <- Q; apply nth_error_nth'; lia).
    rewrite (covered_at E s i u v G) in Hc. apply Nat.eqb_eq in Hc. apply (in_cover_edges n s u v Cs). split; [|exact Hc]. apply (edge_ends n E Co i u v G).
Qed.
Lemma swapped_few n E : complete n E -> forall s s', cover n s -> cover n s' -> length (filter (swapped E s s') (seq 0 (length E))) <= 2 * n.
Proof.
  intros Co s s' Cs Cs'. pose proof (covered_few n E s Co Cs) as A. pose proof (covered_few n E s' Co Cs') as A'.
  assert (Q : forall l, length (filter (swapped E s s') l) <= length (filter (covered E s) l) + length (filter (covered E s') l)).
  { induction l as [|x l IH]; [auto|]. cbn [filter]. unfold swapped at 1. destruct (covered E s x), (covered E s' x); cbn [xorb length]; lia. }
  specialize (Q (seq 0 (length E))). lia.
Qed.
(** ** Main theorems *)

(** First stage.  If, judged by the sign of each reported edge value, one more round of messages between edges
    and nodes would weaken none of them by more than [e], and all edge values are further than [e] from 0,
    then the selected edges form a cycle cover, and it is a cheapest one up to [e] for every edge exchanged. *)
Theorem C78_first_stage : forall o n C ord p st a th V0 B0 V Dg M B ES SD bel e g,
  3 <= n -> cost_matrix_ok n C -> q_alpha o = Fin a -> q_thr o = Fin th -> (forall l, Permutation (ord l) l) ->
  py_call o n (inj C) ord = Some p -> iterate_relaxed p (tsp_init p) = Some st -> 0 < q_iters o ->
  let E := tsp_edges (p_in p) in
  let T := q_iters o in
  (forall i u v, nth_error E i = Some (u, v) -> V0 i u = qat C u v /\ V0 i v = qat C u v) ->
  tour_messages n E C [] (q_filt o) a V0 B0 V Dg M B ES SD ->
  r_intr (t_sol st) = map Fin bel ->
  (0 <= e)%Qc -> (e <= g)%Qc -> close g th 0 ->
  (forall i, i < length E -> (nth i bel 0 < - g \/ g < nth i bel 0)%Qc) ->
  (forall i u v, nth_error E i = Some (u, v) ->
     supports e (nth i bel 0%Qc) (Dg T i u) (M (T - 1)%nat i u) /\
     supports e (nth i bel 0%Qc) (Dg T i v) (M (T - 1)%nat i v)) ->
  exists s, cover n s /\ Permutation (r_selected (t_sol st)) (cover_edges s) /\ r_cost (t_sol st) = Fin (cover_cost C s) /\
    (forall s', cover n s' ->
      (cover_cost C s <= cover_cost C s' + qn (length (filter (swapped E s s') (seq 0 (length E)))) * e)%Qc) /\
    forall h h', hamiltonian n (r_selected (t_sol st)) h -> Permutation h' (seq 0 n) ->
      (tour_cost C h <= tour_cost C h' + qn (2 * n) * e)%Qc.
Proof.
  intros o n C ord p st a th V0 B0 V Dg M B ES SD bel e g Hn HC Ha Ht Po Hp R Hpos E T H0 HM Hbel He Heg Hth Hg Hx.
  destruct (first_messages o n C ord p st a Hn HC Ha Po Hp R) as (V0' & B0' & V' & Dg' & M' & B' & ES' & SD' & H0' & HM' & HI). fold E in H0', HM', HI.
  destruct (py_call_full o n C ord p HC Hp) as (DC & En & Co & L & _). rewrite En in Co. fold E in Co, L.
  assert (BE : forall i u v, nth_error E i = Some (u, v) -> u < n /\ v < n) by (intros i u v G; destruct (edge_ends n E Co i u v G); tauto).
  pose proof (tour_messages_unique n E C [] (q_filt o) a BE ltac:(intros d []) _ _ _ _ _ _ _ _ _ _ _ _ _ _ _ _ HM' HM) as U.
  assert (U' : forall t i u v, nth_error E i = Some (u, v) -> M' t i u = M t i u /\ M' t i v = M t i v).
  { intros t. apply U.
    - intros i u v G. destruct (H0 i u v G) as (-> & ->). exact (H0' i u v G).
    - intros k d i Gk. destruct k; discriminate. }
  destruct (stage_settled o n C ord p st [] a th [] V0 B0 V Dg M B ES SD bel e 0 g) as (s & Cs & Ps & Es & _ & Opt); auto.
  - now apply h_relaxed.
  - intros d [].
  - intros i u v G. rewrite (HI i u v G Hpos). destruct (U' (T - 1) i u v G) as (Q1 & Q2). unfold T in *. rewrite Q1, Q2. reflexivity.
  - apply Qcle_refl.
  - intros k d i Gk. destruct k; discriminate.
  - fold E in Opt. assert (Opt' : forall s', cover n s' -> (cover_cost C s <= cover_cost C s' + qn (length (filter (swapped E s s') (seq 0 (length E)))) * e)%Qc).
    { intros s' Cs'. specialize (Opt s' (fun _ => true) Cs' ltac:(discriminate)). unfold charge in Opt. cbn [length seq filter map Nat.add] in Opt.
      replace (qn 2 * 0)%Qc with 0%Qc in Opt by ring. change (qsum []) with 0%Qc in Opt. change (qn 1) with 1%Qc in Opt. rewrite !Qcplus_0_r in Opt. rewrite ?Qcmult_0_r, ?Qcplus_0_r, Qcmult_1_l in Opt. exact Opt. }
    exists s. split; [exact Cs|]. split; [exact Ps|]. split; [exact Es|]. split; [exact Opt'|].
    intros h h' Hh Ph'. assert (Ec : tour_cost C h = cover_cost C s).
    { unfold cover_cost, tour_cost. apply edges_cost_perm. eapply steps_cover; eauto. }
    destruct (tour_cover n E h' Co) as (s' & Cs' & Ps'); [apply any_tour; auto; lia|].
    assert (Ec' : tour_cost C h' = cover_cost C s') by (unfold tour_cost; symmetry; apply edges_cost_perm; exact Ps').
    rewrite Ec, Ec'. eapply Qcle_trans; [apply Opt'; exact Cs'|]. apply Qcplus_le_compat; [apply Qcle_refl|].
    apply qn_le; [apply (swapped_few n E Co s s' Cs Cs')|exact He].
Qed.

(** Later rounds, with the subtour constraints [D] found so far.  The messages between edges and nodes and those
    from the subtour constraints support the reported edge values up to [e]; [e2] bounds how far the sum of an
    edge's two messages with a constraint stays behind the edge value.  Then the selected edges form a cycle cover
    that satisfies all constraints.  No other cover is cheaper by more than the slack once the messages from some
    of the constraints, [K], are added to the costs of the edges; the other constraints have to hold and to change
    at one edge at most.  Taking all constraints for [K] compares with every cover and every tour. *)
Theorem C78_round : forall o n C ord p st st' l a th V0 B0 V Dg M B ES SD bel e e2 g,
  3 <= n -> cost_matrix_ok n C -> q_alpha o = Fin a -> q_thr o = Fin th -> (forall l, Permutation (ord l) l) ->
  py_call o n (inj C) ord = Some p -> history p (st' :: st :: l) -> 0 < q_iters o ->
  let E := tsp_edges (p_in p) in
  let D := a_deltas (t_an st) in
  let T := q_iters o in
  starts o C E st V0 B0 ->
  tour_messages n E C D (q_filt o) a V0 B0 V Dg M B ES SD ->
  r_intr (t_sol st') = map Fin bel ->
  (0 <= e)%Qc -> (0 <= e2)%Qc -> (e <= g)%Qc -> close g th 0 ->
  (forall i, i < length E -> (nth i bel 0 < - g \/ g < nth i bel 0)%Qc) ->
  (forall i u v, nth_error E i = Some (u, v) ->
     supports e (nth i bel 0%Qc) (Dg T i u) (M (T - 1)%nat i u) /\
     supports e (nth i bel 0%Qc) (Dg T i v) (M (T - 1)%nat i v)) ->
  (forall k d i, nth_error D k = Some d -> In i d ->
     supports e (nth i bel 0%Qc) (ES (T - 1)%nat k i + SD (T - 1)%nat k i)%Qc (nth i bel 0%Qc) /\
     supports e2 (nth i bel 0%Qc) (nth i bel 0%Qc) (ES (T - 1)%nat k i + B T k i)%Qc) ->
  exists s, cover n s /\ Permutation (r_selected (t_sol st')) (cover_edges s) /\ r_cost (t_sol st') = Fin (cover_cost C s) /\
    crosses E D s /\
    (forall s' K, cover n s' ->
      (forall k d, nth_error D k = Some d -> K k = false -> (exists i, In i d /\ covered E s' i = true) /\ one_exchange E d s s') ->
      (cover_cost C s + charge E D (B T) K s <= cover_cost C s' + charge E D (B T) K s' +
         qn (length (filter (swapped E s s') (seq 0 (length E)))) * (qn (1 + length D) * e + qn (2 + length D) * e2))%Qc) /\
    forall h h', hamiltonian n (r_selected (t_sol st')) h -> Permutation h' (seq 0 n) ->
      exists s', cover n s' /\ Permutation (cover_edges s') (steps (closed h')) /\
        forall K, (forall k d, nth_error D k = Some d -> K k = false -> one_exchange E d s s') ->
          (tour_cost C h + charge E D (B T) K s <= tour_cost C h' + charge E D (B T) K s' +
             qn (2 * n) * (qn (1 + length D) * e + qn (2 + length D) * e2))%Qc.
Proof.
  intros o n C ord p st st' l a th V0 B0 V Dg M B ES SD bel e e2 g Hn HC Ha Ht Po Hp H Hpos E D T H0 HM Hbel He He2 Heg Hth Hg Hx Hy.
  destruct (round_messages o n C ord p st st' l a Hn HC Ha Po Hp H) as (V0' & B0' & V' & Dg' & M' & B' & ES' & SD' & H0' & HM' & HI). fold E D in H0', HM', HI.
  destruct (py_call_full o n C ord p HC Hp) as (DC & En & Co & L & _ & _ & _ & _ & _ & _ & _ & _ & _ & Eo & _). rewrite En in Co. fold E in Co, L.
  assert (BE : forall i u v, nth_error E i = Some (u, v) -> u < n /\ v < n) by (intros i u v G; destruct (edge_ends n E Co i u v G); tauto).
  assert (H1 : history p (st :: l)) by (inversion H; assumption).
  pose proof (deltas_ok o n C ord p st l HC Po Hp H1) as HD. fold E D in HD.
  pose proof (tour_messages_unique n E C D (q_filt o) a BE ltac:(intros d Id; apply (HD d Id)) _ _ _ _ _ _ _ _ _ _ _ _ _ _ _ _ HM' HM) as U.
  assert (U' : forall t, same_ends E (M' t) (M t) /\ same_subs D (B' t) (B t)).
  { intros t. destruct (fun A1 A2 => U A1 A2 t) as (_ & _ & U1 & U2 & _).
    - intros i u v G. destruct H0 as (H0 & _), H0' as (H0' & _). specialize (H0 i u v G). specialize (H0' i u v G).
      destruct (q_reset o); [destruct H0 as (-> & ->); exact H0'|].
      destruct H0 as (Q1 & Q2), H0' as (Q1' & Q2'). split; congruence.
    - intros k d i Gk I. destruct H0 as (_ & H0), H0' as (_ & H0').
      assert (Hi : i < length E) by (apply (HD d (nth_error_In _ _ Gk)), I). specialize (H0 k i Hi). specialize (H0' k i Hi).
      destruct (get2 (m_sub (t_msgs st)) k i); congruence.
    - split; assumption. }
  destruct (stage_settled o n C ord p st' (st :: l) a th D V0 B0 V Dg M B ES SD bel e e2 g) as (s & Cs & Ps & Es & Xs & Opt); auto.
  - intros i u v G. rewrite (HI i u v G Hpos). destruct (U' (T - 1)) as (UM & _), (U' T) as (_ & UB). destruct (UM i u v G) as (Q1 & Q2). fold E T. rewrite Q1, Q2.
    rewrite (sum_ext (fun k => B' T k i) (fun k => B T k i)); [reflexivity|]. intros k I. apply in_holding in I as (d & Gk & I). apply (UB k d i Gk I).
  - exists s. split; [exact Cs|]. split; [exact Ps|]. split; [exact Es|]. split; [exact Xs|]. split; [exact Opt|].
    intros h h' Hh Ph'. pose proof (steps_cover n s (r_selected (t_sol st')) h Cs Ps Hh) as Sh.
    assert (Ec : tour_cost C h = cover_cost C s) by (unfold cover_cost, tour_cost; apply edges_cost_perm, Sh).
    assert (Hh' : hamiltonian n E h') by (apply any_tour; auto; lia).
    destruct (tour_cover n E h' Co Hh') as (s' & Cs' & Ps').
    assert (Ec' : tour_cost C h' = cover_cost C s') by (unfold tour_cost; symmetry; apply edges_cost_perm; exact Ps').
    exists s'. split; [exact Cs'|]. split; [exact Ps'|]. intros K HK. rewrite Ec, Ec'. eapply Qcle_trans; [apply Opt; [exact Cs'|]|].
    + intros k d Gk Kk. split; [|apply (HK k d Gk Kk)]. assert (Id : In d D) by exact (nth_error_In _ _ Gk).
      rewrite <- Eo in Po. rewrite <- En in Hh'. destruct (C21_no_tour_excluded p st l d h' Po) as (x & c & i & u & v & -> & I & G & Kc); auto.
      { rewrite En. exact (complete_edges_in _ _ Co). }
      exists i. split; [exact I|]. fold E in G. fold E. rewrite (covered_at E s' i u v G). apply Nat.eqb_eq.
      assert (J : In (u, v) (cover_edges s')).
      { apply (Permutation_in _ (Permutation_sym Ps')). cbn [closed]. apply in_steps. exact Kc. }
      now apply (in_cover_edges n s' u v Cs') in J.
    + apply Qcplus_le_compat; [apply Qcle_refl|]. apply qn_le; [apply (swapped_few n E Co s s' Cs Cs')|].
      pose proof (Qcmult_le_compat_r _ _ _ (qn_nonneg (1 + length D)) He) as P1. pose proof (Qcmult_le_compat_r _ _ _ (qn_nonneg (2 + length D)) He2) as P2.
      rewrite Qcmult_0_l in P1, P2. qlra.
Qed.

(** ** Examples *)

(** The messages of a stage that starts from the costs and without messages from the constraints, by computation. *)
Section Computed.
Variables (n : nat) (E : list (nat * nat)) (C : list (list Qc)) (D : list (list nat)) (flag : bool) (alpha : Qc).
Definition table (r c : nat) (f : nat -> nat -> Qc) : list (list Qc) := map (fun i => map (f i) (seq 0 c)) (seq 0 r).
Definition cheapest (l : list Qc) : Qc := match nmins (map Fin l) with Fin q => q | _ => 0%Qc end.
Definition tail (i : nat) : nat := fst (nth i E (0, 0)).
Definition head (i : nat) : nat := snd (nth i E (0, 0)).
Definition edge_cost (i : nat) : Qc := qat C (tail i) (head i).
Definition node_message (V : list (list Qc)) (i u : nat) : Qc :=
  let l := if tail i =? u then from_node E u else into_node E u in
  (- cheapest (map (fun j => qat V j u) (others i l)))%Qc.
Definition sub_message (S : list (list Qc)) (k i : nat) : Qc :=
  let q := (- cheapest (map (qat S k) (others i (nth k D []))))%Qc in if qltb q 0 then q else 0%Qc.
Record tables := { tV : list (list Qc); tB : list (list Qc); tM : list (list Qc); tF : list (list Qc) }.
Definition next_M (s : tables) : list (list Qc) :=
  table (length E) n (fun i u => effective flag alpha * qat (tM s) i u + (1 - effective flag alpha) * node_message (tV s) i u)%Qc.
Definition next_S (s : tables) : list (list Qc) :=
  let M := next_M s in
  table (length D) (length E) (fun k i => edge_cost i + qat M i (tail i) + qat M i (head i) +
    qsum (map (fun k' => qat (tB s) k' i) (others k (holding D i))))%Qc.
Definition next_B (s : tables) : list (list Qc) :=
  let S := next_S s in
  table (length D) (length E) (fun k i => effective flag alpha * qat (tF s) k i + (1 - effective flag alpha) * sub_message S k i)%Qc.
Definition next (s : tables) : tables :=
  let M := next_M s in
  let B := next_B s in
  {| tV := table (length E) n (fun i u => edge_cost i + qat M i (if tail i =? u then head i else tail i) +
             qsum (map (fun k => qat B k i) (holding D i)))%Qc;
     tB := B; tM := M; tF := B |}.
Fixpoint at_time (t : nat) : tables :=
  match t with
  | O => {| tV := table (length E) n (fun i _ => edge_cost i); tB := table (length D) (length E) (fun _ _ => 0%Qc);
            tM := table (length E) n (fun _ _ => 0%Qc); tF := table (length D) (length E) (fun _ _ => 0%Qc) |}
  | S t => next (at_time t)
  end.
Definition cV t := qat (tV (at_time t)).
Definition cDg t := node_message (tV (at_time t)).
Definition cM t := qat (next_M (at_time t)).
Definition cB t := qat (tB (at_time t)).
Definition cES t := qat (next_S (at_time t)).
Definition cSD t := sub_message (next_S (at_time t)).

Hypothesis (Hn : 3 <= n) (Co : complete n E).
Hypothesis HD : forall d, In d D -> 2 <= length d /\ NoDup d /\ forall i, In i d -> i < length E.
Lemma qat_table r c f i j : i < r -> j < c -> qat (table r c f) i j = f i j.
Proof.
  intros Hi Hj. unfold qat, table. rewrite (nth_indep _ [] (map (f 0) (seq 0 c))) by (rewrite map_length, seq_length; auto).
  rewrite (map_nth (fun i => map (f i) (seq 0 c)) (seq 0 r) 0), seq_nth by auto. cbn [Nat.add].
  rewrite (nth_indep _ 0%Qc (f i 0)) by (rewrite map_length, seq_length; auto). rewrite map_nth, seq_nth by auto. reflexivity.
Qed.
Lemma cheapest_ok l : l <> [] -> nmins (map Fin l) = Fin (cheapest l).
Proof. intro H. unfold cheapest. destruct (nmins_Fin l H) as (q & -> & _). reflexivity. Qed.
Lemma rest_nonempty (l : list nat) pos i : NoDup l -> 2 <= length l -> nth_error l pos = Some i -> others i l <> [].
Proof.
  intros N L G Q. rewrite <- (remove_others l pos i N G) in Q. apply (f_equal (@length nat)) in Q.
  rewrite remove_at_length in Q by (apply nth_error_Some; congruence). cbn in Q. lia.
Qed.
Lemma computed_messages : tour_messages n E C D flag alpha (fun i _ => edge_cost i) (fun _ _ => 0%Qc) cV cDg cM cB cES cSD.
Proof.
  assert (Ec : forall i u v, nth_error E i = Some (u, v) -> edge_cost i = qat C u v) by (intros i u v G; unfold edge_cost, tail, head; rewrite (nth_error_nth _ _ _ G); reflexivity).
  assert (HDk : forall k d i, nth_error D k = Some d -> In i d -> k < length D /\ i < length E) by (intros k d i Gk I; split; [apply nth_error_Some; congruence|apply (HD d (nth_error_In _ _ Gk)), I]).
  split; [|split].
  - intros i u v G. destruct (edge_ends n E Co i u v G) as (Hu & Hv & _ & Hi). unfold cV. cbn [at_time tV]. rewrite !qat_table by auto. auto.
  - intros k d i Gk I. destruct (HDk k d i Gk I). unfold cB. cbn [at_time tB]. now rewrite qat_table.
  - intro t. split; [|split; [|split]].
    + intros u Hu. assert (T : forall l, NoDup l -> 2 <= length l -> forall pos i, nth_error l pos = Some i ->
        minsum_message exactly_one (map (fun i => cV t i u) l) pos (Fin (- cheapest (map (fun j => qat (tV (at_time t)) j u) (others i l)))%Qc)).
      { intros l N L pos i G. pose proof (exactly_one_message (map (fun i => cV t i u) l) pos) as Q. rewrite map_length in Q.
        rewrite remove_at_map, (remove_others l pos i N G), cheapest_ok in Q; [apply Q; apply nth_error_Some; congruence|].
        intro Z. apply map_eq_nil in Z. revert Z. eapply rest_nonempty; eauto. }
      assert (L1 : 2 <= length (from_node E u)) by (apply (from_two n E Hn Co u Hu)).
      assert (L2 : 2 <= length (into_node E u)) by (apply (into_two n E Hn Co u Hu)).
      split; intros pos i G; unfold cDg, node_message, tail.
      * assert (I : In i (from_node E u)) by exact (nth_error_In _ _ G). unfold from_node in I. apply filter_In in I as (_ & I).
        replace (fst (nth i E (0, 0)) =? u) with true by (symmetry; destruct (nth i E (0, 0)); exact I).
        apply T; auto. apply from_nodup.
      * assert (I : In i (into_node E u)) by exact (nth_error_In _ _ G).
        assert (J : fst (nth i E (0, 0)) <> u).
        { unfold into_node in I. apply filter_In in I as (J & I). apply in_seq in J. destruct (edge_get 2 E (le_n 2) i) as (a & b & Gi); [lia|].
          rewrite (nth_error_nth _ _ _ Gi) in I |- *. destruct (edge_ends n E Co i a b Gi) as (_ & _ & Nab & _). cbn in I |- *. apply Nat.eqb_eq in I. congruence. }
        apply Nat.eqb_neq in J. rewrite J. apply T; auto. apply into_nodup.
    + intros i u v G. destruct (edge_ends n E Co i u v G) as (Hu & Hv & Nuv & Hi).
      assert (FM : forall w, w < n -> cM t i w = filtered flag alpha (fun r => cDg r i w) t).
      { intros w Hw. induction t as [|t IH].
        - rewrite filtered_0. unfold cM, next_M. rewrite qat_table by auto. cbn [at_time tM]. rewrite qat_table by auto. unfold cDg. cbn [at_time]. ring.
        - rewrite filtered_S, <- IH. unfold cM at 1, next_M. rewrite qat_table by auto. reflexivity. }
      split; [auto|]. split; [auto|]. rewrite Nat.add_1_r. unfold cV. cbn [at_time]. unfold next. cbn [tV].
      rewrite !qat_table by auto. unfold tail, head. rewrite (nth_error_nth _ _ _ G). cbn [fst snd]. rewrite Nat.eqb_refl, (Ec i u v G).
      destruct (Nat.eqb_spec u v); [congruence|]. split; reflexivity.
    + intros k d i u v Gk I G. destruct (HDk k d i Gk I). unfold cES, next_S. rewrite qat_table by auto. unfold tail, head. rewrite (nth_error_nth _ _ _ G), (Ec i u v G). reflexivity.
    + intros k d pos i Gk G. assert (I : In i d) by exact (nth_error_In _ _ G). destruct (HDk k d i Gk I) as (Hk & Hi). destruct (HD d (nth_error_In _ _ Gk)) as (L & N & _). split.
      * unfold cSD, sub_message. rewrite (nth_error_nth _ _ _ Gk).
        pose proof (at_least_one_message (map (cES t k) d) pos) as Q. rewrite map_length in Q.
        rewrite remove_at_map, (remove_others d pos i N G), cheapest_ok in Q by (intro Z; apply map_eq_nil in Z; revert Z; eapply rest_nonempty; eauto).
        specialize (Q ltac:(apply nth_error_Some; congruence)). unfold nmin, n0 in Q. cbn [nopp nlt] in Q. unfold cES in Q.
        match type of Q with minsum_message _ _ _ ?x => match goal with |- minsum_message _ _ _ ?y => replace y with x; [exact Q|] end end.
        set (x := (- cheapest _)%Qc). destruct (qltb_spec 0 x), (qltb_spec x 0); try reflexivity; [qlra|]. f_equal. apply Qcle_antisym; qlra.
      * rewrite Nat.add_1_r. unfold cB. induction t as [|t IH].
        -- rewrite filtered_0. cbn [at_time]. unfold next at 1. cbn [tB]. unfold next_B. rewrite qat_table by auto. cbn [tF]. rewrite qat_table by auto. unfold cSD. cbn [at_time]. ring.
        -- rewrite filtered_S, <- IH. change (at_time (S (S t))) with (next (at_time (S t))). unfold next at 1. cbn [tB]. unfold next_B at 1. rewrite qat_table by auto. reflexivity.
Qed.
End Computed.

(** The conditions with [e = e2 = 0] by computation. *)
Definition values (l : list num) : list Qc := map (fun x => match x with Fin q => q | _ => 0%Qc end) l.
Definition finiteb (x : num) : bool := match x with Fin _ => true | _ => false end.
Definition supportsb (b a r : Qc) : bool := if qltb b 0 then negb (qltb r a) else negb (qltb a r).
Lemma supportsb_ok b a r : supportsb b a r = true -> supports 0 b a r.
Proof.
  unfold supportsb, supports. destruct (qltb b 0); intro H; apply negb_true_iff in H; match type of H with qltb ?x ?y = _ => destruct (qltb_spec x y); [discriminate|qlra] end.
Qed.
Lemma values_ok l : forallb finiteb l = true -> l = map Fin (values l).
Proof.
  induction l as [|x l IH]; [reflexivity|]. cbn [forallb values map]. rewrite andb_true_iff. intros (F & Q). destruct x; try discriminate. f_equal. now apply IH.
Qed.
Definition nodes_settled (n : nat) (E : list (nat * nat)) (C : list (list Qc)) (D : list (list nat)) (flag : bool) (alpha : Qc) (T : nat) (bel : list Qc) : bool :=
  let s := at_time n E C D flag alpha T in
  let M := next_M n E flag alpha (at_time n E C D flag alpha (T - 1)) in
  forallb (fun i => let b := nth i bel 0%Qc in
    supportsb b (node_message E (tV s) i (tail E i)) (qat M i (tail E i)) &&
    supportsb b (node_message E (tV s) i (head E i)) (qat M i (head E i))) (seq 0 (length E)).
Definition subs_settled (n : nat) (E : list (nat * nat)) (C : list (list Qc)) (D : list (list nat)) (flag : bool) (alpha : Qc) (T : nat) (bel : list Qc) : bool :=
  let S := next_S n E C D flag alpha (at_time n E C D flag alpha (T - 1)) in
  let B := tB (at_time n E C D flag alpha T) in
  forallb (fun k => forallb (fun i => let b := nth i bel 0%Qc in
    supportsb b (qat S k i + sub_message D S k i) b && supportsb b b (qat S k i + qat B k i)) (nth k D [])) (seq 0 (length D)).
Definition apart (g : Qc) (b : Qc) : bool := qltb b (- g) || qltb g b.
Definition cut_ok (m : nat) (d : list nat) : bool :=
  (2 <=? length d) && forallb (fun i => (i <? m) && (count_occ Nat.eq_dec d i =? 1)) d.
Lemma cut_ok_spec m d : cut_ok m d = true -> 2 <= length d /\ NoDup d /\ forall i, In i d -> i < m.
Proof.
  unfold cut_ok. rewrite andb_true_iff, Nat.leb_le, forallb_forall. intros (L & F). split; [exact L|].
  split; [|intros i I; specialize (F i I); apply andb_true_iff in F as (F & _); now apply Nat.ltb_lt].
  apply (NoDup_count_occ Nat.eq_dec). intro i. destruct (in_dec Nat.eq_dec i d) as [I|N].
  - specialize (F i I). apply andb_true_iff in F as (_ & F). apply Nat.eqb_eq in F. lia.
  - apply (count_occ_not_In Nat.eq_dec) in N. lia.
Qed.
Definition gap4 : Qc := Q2Qc (1 # 1000).
(** Four nodes, three iterations per stage, filter factor 1/2: with these costs the first stage selects the tour
    0 2 1 3; its messages support it, so it is a cheapest one. *)
Definition cm78 := mat [[0; 8; 9; 9]; [9; 0; 9; 1]; [5; 3; 0; 4]; [6; 7; 9; 0]]%Z.
Definition half : Qc := Q2Qc (1 # 2).
Definition one_stage (o : tsp_options) (n : nat) (C : list (list Qc)) : option (tsp_params * tsp_state) :=
  p <- py_call o n (inj C) (fun l => l) ;;
  st <- iterate_relaxed p (tsp_init p) ;; Some (p, st).
Definition seen_first (n : nat) (C : list (list Qc)) (o : tsp_options) (x : tsp_params * tsp_state) :=
  let '(p, st) := x in
  let E := tsp_edges (p_in p) in
  let bel := values (r_intr (t_sol st)) in
  ((E, r_selected (t_sol st), length bel),
   forallb finiteb (r_intr (t_sol st)) && nodes_settled n E C [] (q_filt o) half (q_iters o) bel && forallb (apart gap4) bel).
Lemma apart_ok l g m : forallb (apart g) l = true -> length l = m -> forall i, i < m -> (nth i l 0 < - g \/ g < nth i l 0)%Qc.
Proof.
  intros F L i Hi. rewrite forallb_forall in F. specialize (F (nth i l 0%Qc) ltac:(apply nth_In; lia)). unfold apart in F. apply orb_true_iff in F.
  destruct F as [F|F]; [left|right]; match type of F with qltb ?x ?y = _ => destruct (qltb_spec x y); [assumption|discriminate] end.
Qed.
Lemma nodes_settled_ok n E C D flag alpha T bel : nodes_settled n E C D flag alpha T bel = true ->
  forall i u v, nth_error E i = Some (u, v) ->
    supports 0 (nth i bel 0%Qc) (cDg n E C D flag alpha T i u) (cM n E C D flag alpha (T - 1) i u) /\
    supports 0 (nth i bel 0%Qc) (cDg n E C D flag alpha T i v) (cM n E C D flag alpha (T - 1) i v).
Proof.
  unfold nodes_settled. cbv zeta. rewrite forallb_forall. intros F i u v G. assert (Hi : i < length E) by (apply nth_error_Some; congruence).
  specialize (F i ltac:(apply in_seq; lia)). unfold tail, head in F. rewrite (nth_error_nth _ _ _ G) in F. cbn [fst snd] in F.
  apply andb_true_iff in F as (F1 & F2). split; apply supportsb_ok; assumption.
Qed.
Lemma subs_settled_ok n E C D flag alpha T bel : subs_settled n E C D flag alpha T bel = true ->
  forall k d i, nth_error D k = Some d -> In i d ->
    supports 0 (nth i bel 0%Qc) (cES n E C D flag alpha (T - 1) k i + cSD n E C D flag alpha (T - 1) k i)%Qc (nth i bel 0%Qc) /\
    supports 0 (nth i bel 0%Qc) (nth i bel 0%Qc) (cES n E C D flag alpha (T - 1) k i + cB n E C D flag alpha T k i)%Qc.
Proof.
  unfold subs_settled. cbv zeta. rewrite forallb_forall. intros F k d i Gk I. assert (Hk : k < length D) by (apply nth_error_Some; congruence).
  specialize (F k ltac:(apply in_seq; lia)). rewrite (nth_error_nth _ _ _ Gk) in F. rewrite forallb_forall in F. specialize (F i I).
  apply andb_true_iff in F as (F1 & F2). split; apply supportsb_ok; assumption.
Qed.
Lemma hamiltonian_check n E c : NoDup c -> Permutation c (seq 0 n) -> c <> [] ->
  forallb (fun x => existsb (fun y => (fst x =? fst y) && (snd x =? snd y)) E) (steps (closed c)) = true -> hamiltonian n E c.
Proof.
  intros N P Ne F. split; [|exact P]. split; [exact N|]. destruct c as [|x t]; [congruence|]. exists x, t. split; [reflexivity|].
  intros u v K. apply in_steps in K. rewrite forallb_forall in F. specialize (F (u, v) K). apply existsb_exists in F as ((u', v') & I & Q).
  apply andb_true_iff in Q as (Q1 & Q2). cbn in Q1, Q2. apply Nat.eqb_eq in Q1, Q2. now subst.
Qed.
Ltac small_tour := apply hamiltonian_check; [repeat constructor; cbn; intuition discriminate
  |apply NoDup_Permutation; [repeat constructor; cbn; intuition discriminate|apply seq_NoDup|intro x; cbn; intuition lia]|discriminate|reflexivity].
Lemma seen_first_ok : option_map (seen_first 4 cm78 (opt 3 true 20 10)) (one_stage (opt 3 true 20 10) 4 cm78) =
  Some (([(0, 1); (0, 2); (0, 3); (1, 0); (1, 2); (1, 3); (2, 0); (2, 1); (2, 3); (3, 0); (3, 1); (3, 2)],
         [(0, 2); (1, 3); (2, 1); (3, 0)], 12), true).
Proof. vm_compute. reflexivity. Qed.
Lemma cm78_ok : cost_matrix_ok 4 cm78.
Proof. check_matrix. Qed.
Lemma half_ok : q_alpha (opt 3 true 20 10) = Fin half.
Proof. reflexivity. Qed.
Definition tiny : Qc := match thr4 with Fin q => q | _ => 0%Qc end.
Lemma tiny_ok : q_thr (opt 3 true 20 10) = Fin tiny /\ close gap4 tiny 0 /\ (0 <= gap4)%Qc.
Proof. split; [reflexivity|]. split; [split|]; vm_compute; discriminate. Qed.

Example C78_example_first : exists p st, py_call (opt 3 true 20 10) 4 (inj cm78) (fun l => l) = Some p /\
  iterate_relaxed p (tsp_init p) = Some st /\ r_selected (t_sol st) = [(0, 2); (1, 3); (2, 1); (3, 0)] /\
  forall h', Permutation h' (seq 0 4) -> (tour_cost cm78 [0; 2; 1; 3]%nat <= tour_cost cm78 h')%Qc.
Proof.
  pose proof seen_first_ok as S. unfold one_stage in S.
  destruct (py_call (opt 3 true 20 10) 4 (inj cm78) (fun l => l)) as [p|] eqn:Hp; [|discriminate S]. cbn [bind] in S.
  destruct (iterate_relaxed p (tsp_init p)) as [st|] eqn:R; [|discriminate S]. cbn [bind option_map seen_first] in S.
  injection S as SE SR SL SB. exists p, st. split; [reflexivity|]. split; [exact R|]. split; [exact SR|].
  apply andb_true_iff in SB as (SB & SB3). apply andb_true_iff in SB as (SB1 & SB2).
  destruct (py_call_full _ _ _ _ _ cm78_ok Hp) as (_ & En & Co & _). rewrite En in Co.
  destruct (C78_first_stage (opt 3 true 20 10) 4 cm78 (fun l => l) p st half tiny (fun i _ => edge_cost (tsp_edges (p_in p)) cm78 i) (fun _ _ => 0%Qc)
    (cV 4 (tsp_edges (p_in p)) cm78 [] true half) (cDg 4 (tsp_edges (p_in p)) cm78 [] true half) (cM 4 (tsp_edges (p_in p)) cm78 [] true half)
    (cB 4 (tsp_edges (p_in p)) cm78 [] true half) (cES 4 (tsp_edges (p_in p)) cm78 [] true half) (cSD 4 (tsp_edges (p_in p)) cm78 [] true half)
    (values (r_intr (t_sol st))) 0 gap4 ltac:(lia) cm78_ok half_ok (proj1 tiny_ok) (fun l => Permutation_refl l) Hp R ltac:(cbn; lia)
    ltac:(intros i u v G; unfold edge_cost, tail, head; rewrite (nth_error_nth _ _ _ G); auto)
    (computed_messages 4 _ cm78 [] true half ltac:(lia) Co ltac:(intros d []))
    (values_ok _ SB1) (Qcle_refl 0) (proj2 (proj2 tiny_ok)) (proj1 (proj2 tiny_ok)))
    as (s & _ & _ & _ & _ & Opt).
  - apply apart_ok; [exact SB3|]. rewrite SL, SE. reflexivity.
  - apply nodes_settled_ok. exact SB2.
  - intros h' P. specialize (Opt [0; 2; 1; 3] h'). rewrite Qcmult_0_r, Qcplus_0_r in Opt. apply Opt; [|exact P]. rewrite SR.
    small_tour.
Qed.

(** With other costs the first stage selects the cycles 0 3 and 1 2, and the round with the two constraints that
    follow from them the tour 0 3 1 2, supported by all messages.  So no tour and no cover is cheaper when the
    messages from the constraints are added. *)
Definition cm78' := mat [[0; 8; 6; 1]; [8; 0; 1; 4]; [5; 5; 0; 5]; [8; 9; 9; 0]]%Z.
Definition two_stages (o : tsp_options) (n : nat) (C : list (list Qc)) : option (tsp_params * tsp_state * tsp_state) :=
  p <- py_call o n (inj C) (fun l => l) ;;
  st <- iterate_relaxed p (tsp_init p) ;;
  r <- iterate_augmented p (grow p st) ;;
  match r with Returned st' => Some (p, st, st') | _ => None end.
Definition goes_on (p : tsp_params) (st : tsp_state) : bool :=
  negb (a_satisfied (t_an st)) && (p_aug p && (negb (a_tour_flag (t_an st)) && (negb (a_nocons_flag (t_an st)) &&
  (negb (c_noimp_flag (t_cnt st)) && (negb (c_osc_flag (t_cnt st)) && negb (neqb (r_cost (t_sol st)) n0)))))).
Lemma goes_on_ok p st : goes_on p st = true -> continues p st.
Proof. unfold goes_on, continues. rewrite !andb_true_iff, !negb_true_iff. tauto. Qed.
Definition seen_round (n : nat) (C : list (list Qc)) (o : tsp_options) (x : tsp_params * tsp_state * tsp_state) :=
  let '(p, st, st') := x in
  let E := tsp_edges (p_in p) in
  let D := a_deltas (t_an st) in
  let bel := values (r_intr (t_sol st')) in
  ((E, D, r_selected (t_sol st), r_selected (t_sol st')), m_sub (t_msgs st), length bel,
   (goes_on p st && forallb finiteb (r_intr (t_sol st'))) && (nodes_settled n E C D (q_filt o) half (q_iters o) bel &&
    (subs_settled n E C D (q_filt o) half (q_iters o) bel && forallb (apart gap4) bel))).
Lemma seen_round_ok : option_map (seen_round 4 cm78' (opt 3 true 20 10)) (two_stages (opt 3 true 20 10) 4 cm78') =
  Some (([(0, 1); (0, 2); (0, 3); (1, 0); (1, 2); (1, 3); (2, 0); (2, 1); (2, 3); (3, 0); (3, 1); (3, 2)],
         [[0; 1; 10; 11]; [3; 5; 6; 8]], [(0, 3); (1, 2); (2, 1); (3, 0)], [(0, 3); (1, 2); (2, 0); (3, 1)]), [], 12, true).
Proof. vm_compute. reflexivity. Qed.
Lemma cm78'_ok : cost_matrix_ok 4 cm78'.
Proof. check_matrix. Qed.
Example C78_example_round : exists p st st', py_call (opt 3 true 20 10) 4 (inj cm78') (fun l => l) = Some p /\
  history p [st'; st] /\ r_selected (t_sol st) = [(0, 3); (1, 2); (2, 1); (3, 0)] /\
  r_selected (t_sol st') = [(0, 3); (1, 2); (2, 0); (3, 1)] /\
  let E := tsp_edges (p_in p) in
  let D := a_deltas (t_an st) in
  let B := cB 4 E cm78' D true half in
  exists s, cover 4 s /\ crosses E D s /\
  (forall s', cover 4 s' -> (cover_cost cm78' s + charge E D (B 3) (fun _ => true) s <= cover_cost cm78' s' + charge E D (B 3) (fun _ => true) s')%Qc) /\
  forall h', Permutation h' (seq 0 4) -> exists s', Permutation (cover_edges s') (steps (closed h')) /\
    (tour_cost cm78' [0; 3; 1; 2]%nat + charge E D (B 3) (fun _ => true) s <= tour_cost cm78' h' + charge E D (B 3) (fun _ => true) s')%Qc.
Proof.
  pose proof seen_round_ok as S. unfold two_stages in S.
  destruct (py_call (opt 3 true 20 10) 4 (inj cm78') (fun l => l)) as [p|] eqn:Hp; [|discriminate S]. cbn [bind] in S.
  destruct (iterate_relaxed p (tsp_init p)) as [st|] eqn:R; [|discriminate S]. cbn [bind] in S.
  destruct (iterate_augmented p (grow p st)) as [[st'| |]|] eqn:R'; try discriminate S. cbn [bind option_map seen_round] in S.
  injection S as SE SD SR SR' SM SL SB. exists p, st, st'. split; [reflexivity|].
  apply andb_true_iff in SB as (SB1 & SB). apply andb_true_iff in SB1 as (SB1 & SB2). apply andb_true_iff in SB as (SB3 & SB). apply andb_true_iff in SB as (SB4 & SB5).
  assert (H : history p [st'; st]) by (apply h_round; [now apply h_relaxed|now apply goes_on_ok|exact R']).
  split; [exact H|]. split; [exact SR|]. split; [exact SR'|]. intros E D B.
  destruct (py_call_full _ _ _ _ _ cm78'_ok Hp) as (_ & En & Co & _). rewrite En in Co. fold E in Co.
  assert (HD : forall d, In d D -> 2 <= length d /\ NoDup d /\ forall i, In i d -> i < length E).
  { intros d I. apply cut_ok_spec. unfold E, D in *. rewrite SE. rewrite SD in I. destruct I as [<-|[<-|[]]]; reflexivity. }
  destruct (C78_round (opt 3 true 20 10) 4 cm78' (fun l => l) p st st' [] half tiny (fun i _ => edge_cost E cm78' i) (fun _ _ => 0%Qc)
    (cV 4 E cm78' D true half) (cDg 4 E cm78' D true half) (cM 4 E cm78' D true half)
    (cB 4 E cm78' D true half) (cES 4 E cm78' D true half) (cSD 4 E cm78' D true half)
    (values (r_intr (t_sol st'))) 0 0 gap4 ltac:(lia) cm78'_ok half_ok (proj1 tiny_ok) (fun l => Permutation_refl l) Hp H ltac:(cbn; lia))
    as (s & Cs & _ & _ & Xs & Opt & OptT).
  - split.
    + intros i u v G. change (q_reset (opt 3 true 20 10)) with true. cbv iota. unfold edge_cost, tail, head. fold E in G. rewrite (nth_error_nth _ _ _ G). auto.
    + intros k i _. rewrite SM. destruct k; reflexivity.
  - exact (computed_messages 4 E cm78' D true half ltac:(lia) Co HD).
  - exact (values_ok _ SB2).
  - apply Qcle_refl.
  - apply Qcle_refl.
  - exact (proj2 (proj2 tiny_ok)).
  - exact (proj1 (proj2 tiny_ok)).
  - apply apart_ok; [exact SB5|]. rewrite SL, SE. reflexivity.
  - apply nodes_settled_ok. exact SB3.
  - apply subs_settled_ok. exact SB4.
  - exists s. split; [exact Cs|]. split; [exact Xs|].
    assert (Z : forall x y z : Qc, (x * (y * 0 + z * 0) = 0)%Qc) by (intros; ring).
    split.
    + intros s' Cs'. specialize (Opt s' (fun _ => true) Cs' ltac:(discriminate)). eapply Qcle_trans; [exact Opt|].
      rewrite Z, Qcplus_0_r. apply Qcle_refl.
    + intros h' P. destruct (OptT [0; 3; 1; 2] h') as (s' & _ & Ps' & O'); [|exact P|].
      * rewrite SR'. small_tour.
      * exists s'. split; [exact Ps'|]. eapply Qcle_trans; [apply (O' (fun _ => true)); discriminate|].
        rewrite Z, Qcplus_0_r. apply Qcle_refl.
Qed.

Print Assumptions C78_first_stage.
Print Assumptions C78_round.
