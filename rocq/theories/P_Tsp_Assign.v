(** * The first stage of a TSP call solves the assignment problem: proofs. *)
From Coq Require Import Permutation.
From Verif Require Import Num NumFacts Arr ArrFacts Spec SpecRun SpecGraph SpecCover MinSum MinSumFacts.
From Verif Require Import P_Tsp_Constraints M_InOut P_InOut M_Tsp_Run P_Tsp_Run P_Tsp_Fin M_Tsp_Py P_Tsp_Py T_Tsp_Run T_Tsp_Call T_Tsp_Sched.
From Verif Require Import P_Ksat P_PyRef_Ksat P_Assign.
Local Open Scope nat_scope.

(** ** Filtering as a recursion *)
Definition effective (flag : bool) (a : Qc) : Qc := if flag && negb (Qc_eq_bool a 0) then a else 0%Qc.
Lemma filtered_S flag a d t :
  filtered flag a d (S t) = (effective flag a * filtered flag a d t + (1 - effective flag a) * d (S t))%Qc.
Proof.
  unfold filtered, effective. destruct (flag && negb (Qc_eq_bool a 0)); [|ring].
  replace (S t + 1) with (S (t + 1)) by lia. rewrite seq_S, map_app, qsum_app. cbn [map]. rewrite qsum_cons.
  replace (0 + (t + 1)) with (S t) by lia. rewrite Nat.sub_diag. change (qsum []) with 0%Qc. cbn [Qcpower].
  rewrite (map_ext_in _ (fun i => a * ((1 - a) * a ^ (t - i) * d i))%Qc).
  - assert (A : forall f (l : list nat), qsum (map (fun i => a * f i)%Qc l) = (a * qsum (map f l))%Qc).
    { intros f l; induction l as [|x l IH]; cbn [map]; [change (qsum []) with 0%Qc; ring|].
      rewrite !qsum_cons, IH. ring. }
    rewrite A. ring.
  - intros i I. apply in_seq in I. replace (S t - i) with (S (t - i)) by lia. cbn [Qcpower]. ring.
Qed.
Lemma filtered_0 flag a d : filtered flag a d 0 = ((1 - effective flag a) * d 0%nat)%Qc.
Proof.
  unfold filtered, effective. destruct (flag && negb (Qc_eq_bool a 0)); [|ring].
  cbn [Nat.add seq map]. rewrite qsum_cons. change (qsum []) with 0%Qc. cbn. ring.
Qed.

(** ** "Exactly one" messages *)
Lemma in_remove_at {A} (l : list A) pos i j : NoDup l -> nth_error l pos = Some i ->
  In j (remove_at pos l) <-> In j l /\ j <> i.
Proof.
  intros N H. apply nth_error_split in H as (a & b & -> & L). rewrite <- L, remove_at_app, !in_app_iff. cbn [In].
  pose proof (NoDup_remove_2 _ _ _ N) as X. rewrite in_app_iff in X. split.
  - intros [I|I]; (split; [tauto|]); intros ->; tauto.
  - intros ([I|[I|I]] & Q); [tauto|congruence|tauto].
Qed.
Lemma exactly_one_facts (f : nat -> Qc) l pos i d : NoDup l -> 2 <= length l -> nth_error l pos = Some i ->
  minsum_message exactly_one (map f l) pos (Fin d) ->
  (exists j, In j l /\ j <> i /\ d = (- f j)%Qc) /\ (forall j, In j l -> j <> i -> (- d <= f j)%Qc).
Proof.
  intros N L H M. assert (Hp : pos < length l) by (apply nth_error_Some; congruence).
  assert (Hp' : pos < length (map f l)) by (rewrite map_length; exact Hp).
  pose proof (minsum_message_unique _ _ _ _ _ M (exactly_one_message _ pos Hp')) as Q.
  rewrite remove_at_map in Q. pose proof (nmins_is_min (map f (remove_at pos l))) as Mi.
  destruct (nmins_Fin (map f (remove_at pos l))) as (q & Eq & I).
  { intros X. apply map_eq_nil in X. pose proof (remove_at_length pos l Hp) as Y. rewrite X in Y. cbn in Y. lia. }
  rewrite Eq in Q, Mi. cbn in Q. injection Q as ->. destruct Mi as (_ & Mi). split.
  - apply in_map_iff in I as (j & <- & I). apply (in_remove_at _ _ i) in I; auto. exists j; tauto.
  - intros j Ij Nj. replace (- - q)%Qc with q by ring. apply Mi, in_map. apply (in_remove_at _ _ i); auto.
Qed.

(** ** Numbers of the edges *)
Fixpoint pos_of (E : list (nat * nat)) (u v : nat) : nat :=
  match E with
  | [] => 0
  | (a, b) :: E => if (a =? u) && (b =? v) then 0 else S (pos_of E u v)
  end.
Lemma pos_of_ok E u v : In (u, v) E -> nth_error E (pos_of E u v) = Some (u, v).
Proof.
  induction E as [|(a, b) E IH]; [intros []|]. intros I. cbn [pos_of].
  destruct ((a =? u) && (b =? v)) eqn:Q.
  - apply andb_prop in Q as (Q1 & Q2). apply Nat.eqb_eq in Q1, Q2. subst. reflexivity.
  - destruct I as [I|I]; [injection I as -> ->; rewrite !Nat.eqb_refl in Q; discriminate|]. cbn. auto.
Qed.
Lemma pos_of_unique E u v i : NoDup E -> nth_error E i = Some (u, v) -> i = pos_of E u v.
Proof.
  intros N H. apply (proj1 (NoDup_nth_error E) N); [apply nth_error_Some; congruence|].
  rewrite H. symmetry. apply pos_of_ok. exact (nth_error_In _ _ H).
Qed.
Lemma in_from E u i : In i (from_node E u) <-> exists v, nth_error E i = Some (u, v).
Proof.
  unfold from_node. rewrite filter_In, in_seq, Nat.eqb_eq. split.
  - intros (H & Q). destruct (nth_error E i) as [(a, b)|] eqn:G; [|apply nth_error_None in G; lia].
    rewrite (nth_error_nth _ _ _ G) in Q. cbn in Q. subst. eauto.
  - intros (v & G). rewrite (nth_error_nth _ _ _ G). cbn. split; [|reflexivity].
    assert (i < length E) by (apply nth_error_Some; congruence). lia.
Qed.
Lemma in_into E v i : In i (into_node E v) <-> exists u, nth_error E i = Some (u, v).
Proof.
  unfold into_node. rewrite filter_In, in_seq, Nat.eqb_eq. split.
  - intros (H & Q). destruct (nth_error E i) as [(a, b)|] eqn:G; [|apply nth_error_None in G; lia].
    rewrite (nth_error_nth _ _ _ G) in Q. cbn in Q. subst. eauto.
  - intros (u & G). rewrite (nth_error_nth _ _ _ G). cbn. split; [|reflexivity].
    assert (i < length E) by (apply nth_error_Some; congruence). lia.
Qed.
Lemma from_nodup E u : NoDup (from_node E u).
Proof. apply NoDup_filter, seq_NoDup. Qed.
Lemma into_nodup E u : NoDup (into_node E u).
Proof. apply NoDup_filter, seq_NoDup. Qed.
Lemma two_members (l : list nat) a b : In a l -> In b l -> a <> b -> 2 <= length l.
Proof.
  intros A B N. destruct l as [|x [|y l]]; [destruct A| |cbn; lia].
  destruct A as [A|[]], B as [B|[]]. congruence.
Qed.
(** a node other than two given ones *)
Lemma third n a b : 3 <= n -> exists c, c < n /\ c <> a /\ c <> b.
Proof.
  intros H.
  destruct (Nat.eq_dec a 0) as [Ha|Ha], (Nat.eq_dec b 0) as [Hb|Hb], (Nat.eq_dec a 1) as [Ha1|Ha1], (Nat.eq_dec b 1) as [Hb1|Hb1]; subst;
    try lia; first [now (exists 0; lia)|now (exists 1; lia)|now (exists 2; lia)].
Qed.

(** ** Messages of the first stage, by pairs of nodes *)
Section Stage.
Variables (n : nat) (E : list (nat * nat)) (C : list (list Qc)) (flag : bool) (a : Qc).
Variables V Dg M : nat -> list (list Qc).
Hypothesis Hn : 3 <= n.
Hypothesis Co : complete n E.
Hypothesis HV0 : forall i u v, nth_error E i = Some (u, v) ->
       qat (V 0) i u = qat C u v /\ qat (V 0) i v = qat C u v.
Hypothesis HD : forall t u, u < n ->
          (forall pos i, nth_error (from_node E u) pos = Some i ->
             minsum_message exactly_one (map (fun i => qat (V t) i u) (from_node E u)) pos (Fin (qat (Dg t) i u))) /\
          (forall pos i, nth_error (into_node E u) pos = Some i ->
             minsum_message exactly_one (map (fun i => qat (V t) i u) (into_node E u)) pos (Fin (qat (Dg t) i u))).
Hypothesis HM : forall t i u v, nth_error E i = Some (u, v) ->
          qat (M t) i u = filtered flag a (fun r => qat (Dg r) i u) t /\
          qat (M t) i v = filtered flag a (fun r => qat (Dg r) i v) t /\
          qat (V (t + 1)) i u = (qat C u v + qat (M t) i v)%Qc /\
          qat (V (t + 1)) i v = (qat C u v + qat (M t) i u)%Qc.

Definition rowm (t i k : nat) : Qc := match t with O => 0%Qc | S t => qat (M t) (pos_of E i k) i end.
Definition colm (t i k : nat) : Qc := match t with O => 0%Qc | S t => qat (M t) (pos_of E i k) k end.
Definition rawr (t i k : nat) : Qc := qat (Dg t) (pos_of E i k) i.
Definition rawc (t i k : nat) : Qc := qat (Dg t) (pos_of E i k) k.
Lemma edge i k : i < n -> k < n -> i <> k -> nth_error E (pos_of E i k) = Some (i, k).
Proof. intros. apply pos_of_ok, (proj2 Co); auto. Qed.
Lemma pos_inj i k j l : i < n -> k < n -> i <> k -> j < n -> l < n -> j <> l ->
  pos_of E i k = pos_of E j l -> i = j /\ k = l.
Proof.
  intros H1 H2 H3 H4 H5 H6 Q. pose proof (edge i k H1 H2 H3) as A. rewrite Q, edge in A by auto.
  injection A as -> ->; auto.
Qed.
Lemma to_row t i k : i < n -> k < n -> i <> k -> qat (V t) (pos_of E i k) i = (qat C i k + colm t i k)%Qc.
Proof.
  intros Hi Hk N. pose proof (edge i k Hi Hk N) as G. destruct t as [|t].
  - cbn [colm]. rewrite (proj1 (HV0 _ _ _ G)). ring.
  - replace (S t) with (t + 1) by lia. destruct (HM t _ _ _ G) as (_ & _ & Q & _). rewrite Q.
    replace (t + 1) with (S t) by lia. reflexivity.
Qed.
Lemma to_col t i k : i < n -> k < n -> i <> k -> qat (V t) (pos_of E i k) k = (qat C i k + rowm t i k)%Qc.
Proof.
  intros Hi Hk N. pose proof (edge i k Hi Hk N) as G. destruct t as [|t].
  - cbn [rowm]. rewrite (proj2 (HV0 _ _ _ G)). ring.
  - replace (S t) with (t + 1) by lia. destruct (HM t _ _ _ G) as (_ & _ & _ & Q). rewrite Q.
    replace (t + 1) with (S t) by lia. reflexivity.
Qed.
Lemma rowm_S t i k : i < n -> k < n -> i <> k ->
  rowm (S t) i k = (effective flag a * rowm t i k + (1 - effective flag a) * rawr t i k)%Qc /\
  colm (S t) i k = (effective flag a * colm t i k + (1 - effective flag a) * rawc t i k)%Qc.
Proof.
  intros Hi Hk N. pose proof (edge i k Hi Hk N) as G. cbn [rowm colm]. unfold rawr, rawc.
  destruct (HM t _ _ _ G) as (-> & -> & _). destruct t as [|t].
  - rewrite !filtered_0. cbn [rowm colm]. split; ring.
  - rewrite !filtered_S. cbn [rowm colm]. destruct (HM t _ _ _ G) as (-> & -> & _). auto.
Qed.
Lemma rawr_ok t i k : i < n -> k < n -> i <> k ->
  (exists j, j < n /\ j <> i /\ j <> k /\ rawr t i k = (- (qat C i j + colm t i j))%Qc) /\
  (forall j, j < n -> j <> i -> j <> k -> (- rawr t i k <= qat C i j + colm t i j)%Qc).
Proof.
  intros Hi Hk N. pose proof (edge i k Hi Hk N) as G.
  assert (I : In (pos_of E i k) (from_node E i)) by (apply in_from; eauto).
  destruct (third n i k Hn) as (c & Hc & Nci & Nck).
  pose proof (edge i c Hi Hc (not_eq_sym Nci)) as Gc.
  assert (Ic : In (pos_of E i c) (from_node E i)) by (apply in_from; eauto).
  assert (L : 2 <= length (from_node E i)).
  { apply (two_members _ _ _ I Ic). intros Q. apply pos_inj in Q; auto. intuition congruence. }
  destruct (In_nth_error _ _ I) as (pos & P).
  destruct (exactly_one_facts _ _ _ _ _ (from_nodup E i) L P (proj1 (HD t i Hi) pos _ P)) as ((x & Ix & Nx & Q) & F). split.
  - apply in_from in Ix as (j & Gj). assert (Hj : i < n /\ j < n /\ i <> j) by (apply (proj2 Co); exact (nth_error_In _ _ Gj)).
    rewrite (pos_of_unique _ _ _ _ (proj1 Co) Gj) in *. exists j. split; [tauto|]. split; [intuition congruence|].
    split; [intros ->; congruence|]. unfold rawr. rewrite Q, to_row by tauto. reflexivity.
  - intros j Hj Nji Njk. rewrite <- to_row by auto. apply F.
    + apply in_from. exists j. apply edge; auto.
    + intros X. apply pos_inj in X; auto. tauto.
Qed.
Lemma rawc_ok t i k : i < n -> k < n -> i <> k ->
  (exists l, l < n /\ l <> k /\ l <> i /\ rawc t i k = (- (qat C l k + rowm t l k))%Qc) /\
  (forall l, l < n -> l <> k -> l <> i -> (- rawc t i k <= qat C l k + rowm t l k)%Qc).
Proof.
  intros Hi Hk N. pose proof (edge i k Hi Hk N) as G.
  assert (I : In (pos_of E i k) (into_node E k)) by (apply in_into; eauto).
  destruct (third n i k Hn) as (c & Hc & Nci & Nck).
  pose proof (edge c k Hc Hk Nck) as Gc.
  assert (Ic : In (pos_of E c k) (into_node E k)) by (apply in_into; eauto).
  assert (L : 2 <= length (into_node E k)).
  { apply (two_members _ _ _ I Ic). intros Q. apply pos_inj in Q; auto. intuition congruence. }
  destruct (In_nth_error _ _ I) as (pos & P).
  destruct (exactly_one_facts _ _ _ _ _ (into_nodup E k) L P (proj2 (HD t k Hk) pos _ P)) as ((x & Ix & Nx & Q) & F). split.
  - apply in_into in Ix as (j & Gj). assert (Hj : j < n /\ k < n /\ j <> k) by (apply (proj2 Co); exact (nth_error_In _ _ Gj)).
    rewrite (pos_of_unique _ _ _ _ (proj1 Co) Gj) in *. exists j. split; [tauto|]. split; [tauto|].
    split; [intros ->; congruence|]. unfold rawc. rewrite Q, to_col by tauto. reflexivity.
  - intros j Hj Njk Nji. rewrite <- to_col by auto. apply F.
    + apply in_into. exists j. apply edge; auto.
    + intros X. apply pos_inj in X; auto. tauto.
Qed.
End Stage.

(** ** The selection of the first stage *)
Lemma relaxed_selection o n C ord p st : 3 <= n -> cost_matrix_ok n C -> (exists a, q_alpha o = Fin a) ->
  (forall l, Permutation (ord l) l) ->
  py_call o n (inj C) ord = Some p -> iterate_relaxed p (tsp_init p) = Some st ->
  NoDup (r_selected (t_sol st)) /\ r_cost (t_sol st) = Fin (edges_cost C (r_selected (t_sol st))) /\
  forall u v, In (u, v) (r_selected (t_sol st)) <->
    exists i y, nth_error (tsp_edges (p_in p)) i = Some (u, v) /\ nth_error (r_intr (t_sol st)) i = Some y /\ ngt y (q_thr o) = false.
Proof.
  intros Hn HC (a & Ha) Po Hp R.
  destruct (py_call_full o n C ord p HC Hp)
    as (DC & En & Co & L & Ec & Em & Ed & Ee & SM & Ea & Ef & Ei & Er & Eo & HM).
  assert (Et : p_thr p = q_thr o).
  { destruct (py_call_ok o n C ord HC) as (p' & M' & A & _ & _ & _ & _ & _ & _ & _ & _ & _ & _ & T & _).
    rewrite Hp in A. injection A as <-. exact T. }
  set (E := tsp_edges (p_in p)) in *. set (cost := map (fun e => qat C (fst e) (snd e)) E) in *.
  assert (Lc : length cost = p_e p) by (unfold cost; rewrite map_length; exact L).
  destruct (relaxed_inv _ _ _ R) as ((D1 & D2) & _).
  assert (Li : length (r_intr (t_sol st)) = p_e p).
  { rewrite <- Ea in Ha. rewrite <- Eo in Po. rewrite <- En in Hn.
    destruct (relaxed_fin p Hn Co L (ex_intro _ a Ha) (ex_intro _ cost (conj Lc Ec)) (ex_intro _ DC (conj SM Ed)) (ex_intro _ DC (conj SM Ee)) Po)
      as (st' & R' & F). rewrite R in R'. injection R' as <-. destruct F as (_ & _ & (q & Lq & ->) & _). rewrite map_length; exact Lq. }
  rewrite (select_ok _ _ _ _ Li L) in D1. injection D1 as D1.
  rewrite Ec in D2. rewrite (cost_ok _ _ _ _ Li Lc) in D2. injection D2 as D2.
  rewrite <- D1, <- D2. fold E. set (ch := chosen (p_thr p) (r_intr (t_sol st))).
  assert (Hch : forall i, In i ch -> i < length E).
  { intros i I. unfold ch, chosen in I. apply filter_In in I as (I & _). apply in_seq in I. lia. }
  assert (Nch : NoDup ch) by (apply NoDup_filter, seq_NoDup).
  split; [|split].
  - clear - Hch Nch Co. induction ch as [|x l IH]; cbn [map]; [constructor|].
    inversion Nch as [|? ? N1 N2]; subst. constructor; [|apply IH; auto; intros; apply Hch; now right].
    intros I. apply in_map_iff in I as (y & Q & I). apply N1.
    replace x with y; [exact I|]. apply (proj1 (NoDup_nth E (0, 0)) (proj1 Co)); [apply Hch; now right|apply Hch; now left|exact Q].
  - f_equal. unfold edges_cost. rewrite map_map. f_equal. apply map_ext_in. intros i I. specialize (Hch i I).
    unfold cost. destruct (nth_error E i) as [(u, v)|] eqn:G; [|apply nth_error_None in G; lia].
    rewrite (cost_nth C E i u v G), (nth_error_nth _ _ _ G). reflexivity.
  - intros u v. rewrite in_map_iff. split.
    + intros (i & Q & I). pose proof (Hch i I) as Hi. unfold ch, chosen in I. apply filter_In in I as (_ & I).
      destruct (nth_error (r_intr (t_sol st)) i) as [y|] eqn:Y; [|apply nth_error_None in Y; lia].
      rewrite (nth_error_nth _ _ _ Y) in I. apply negb_true_iff in I. rewrite Et in I.
      exists i, y. split; [|auto]. rewrite <- Q. apply nth_error_nth'. exact Hi.
    + intros (i & y & G & Y & B). exists i. split; [exact (nth_error_nth _ _ _ G)|].
      unfold ch, chosen. apply filter_In. split.
      * apply in_seq. rewrite Li, <- L. assert (i < length E) by (apply nth_error_Some; congruence). lia.
      * rewrite (nth_error_nth _ _ _ Y), Et, B. reflexivity.
Qed.

(** ** Tours are covers *)
Lemma combine_steps x t z : combine (x :: t) (t ++ [z]) = steps (x :: t ++ [z]).
Proof. revert x; induction t as [|y t IH]; intros x; [reflexivity|].
  change (combine (x :: y :: t) ((y :: t) ++ [z])) with ((x, y) :: combine (y :: t) (t ++ [z])). rewrite IH. reflexivity. Qed.
Lemma cover_edges_map s : cover_edges s = map (fun x => (x, nth x s 0)) (seq 0 (length s)).
Proof.
  unfold cover_edges.
  assert (G : forall b, map (fun x => (x, nth (x - b) s 0)) (seq b (length s)) = combine (seq b (length s)) s).
  { induction s as [|a l IH]; intros b; [reflexivity|]. cbn [length seq map combine]. rewrite Nat.sub_diag. cbn [nth]. f_equal.
    rewrite <- IH. apply map_ext_in. intros x I. apply in_seq in I. replace (x - b) with (S (x - S b)) by lia. reflexivity. }
  rewrite <- G. apply map_ext. intros x. now rewrite Nat.sub_0_r.
Qed.
Lemma cover_length n s : cover n s -> length s = n.
Proof. intros H. rewrite (Permutation_length (proj1 H)). apply seq_length. Qed.
Lemma in_cover_edges n s u v : cover n s -> In (u, v) (cover_edges s) <-> u < n /\ v = nth u s 0.
Proof.
  intros H. rewrite cover_edges_map, (cover_length n s H), in_map_iff. split.
  - intros (x & Q & I). injection Q as -> <-. apply in_seq in I. split; [lia|reflexivity].
  - intros (Hu & ->). exists u. split; [reflexivity|]. apply in_seq; lia.
Qed.
Lemma cover_cost_sum n C s : length s = n -> cover_cost C s = qsum (map (fun i => qat C i (nth i s 0%nat)) (seq 0 n)).
Proof. intros <-. unfold cover_cost, edges_cost. rewrite cover_edges_map, map_map. reflexivity. Qed.
Lemma tour_cover n E h : complete n E -> hamiltonian n E h ->
  exists s, cover n s /\ Permutation (cover_edges s) (steps (closed h)).
Proof.
  intros Co ((N & x & t & -> & P) & Pm). cbn [closed]. set (c := x :: t) in *. set (d := t ++ [x]).
  assert (Ld : length d = length c) by (unfold d, c; rewrite app_length; cbn; lia).
  assert (E' : steps (c ++ [x]) = combine c d) by (unfold c, d; rewrite combine_steps; reflexivity).
  set (pi := look (combine c d)).
  assert (Es : forall i, i < n -> nth i (map pi (seq 0 n)) 0 = pi i).
  { intros i Hi. apply nth_error_nth. rewrite nth_error_map, (nth_error_nth' (seq 0 n) 0), seq_nth by (rewrite ?seq_length; lia). reflexivity. }
  exists (map pi (seq 0 n)). split; [split|].
  - eapply Permutation_trans; [apply Permutation_map, Permutation_sym, Pm|]. unfold pi. rewrite look_map by auto.
    eapply Permutation_trans; [|exact Pm]. unfold c, d. apply Permutation_sym, Permutation_cons_append.
  - intros i Q. assert (Hi : i < n).
    { assert (H : i < length (map pi (seq 0 n))) by (apply nth_error_Some; congruence). now rewrite map_length, seq_length in H. }
    apply (nth_error_nth _ _ 0) in Q. rewrite Es in Q by auto.
    assert (I : In i c) by (apply (Permutation_in _ (Permutation_sym Pm)), in_seq; lia).
    pose proof (look_in c d N Ld i I) as J. fold pi in J. rewrite Q, <- E' in J. apply in_steps in J.
    apply P, (proj2 Co) in J. tauto.
  - rewrite E', cover_edges_map, map_length, seq_length.
    rewrite (map_ext_in _ (fun i => (i, pi i))) by (intros i I; apply in_seq in I; rewrite Es by lia; reflexivity).
    eapply Permutation_trans; [apply Permutation_map, Permutation_sym, Pm|].
    replace (map (fun i => (i, pi i)) c) with (combine c d); [apply Permutation_refl|].
    rewrite <- (look_map c d N Ld) at 1. fold pi.
    generalize pi c. clear. intros f c; induction c as [|a l IH]; [reflexivity|]. cbn. now rewrite IH.
Qed.
Lemma edges_cost_perm C E E' : Permutation E E' -> edges_cost C E = edges_cost C E'.
Proof. intros P. apply qsum_perm, Permutation_map, P. Qed.
