(** * Filtered min-sum message passing on factor graphs without cycles (no code is modelled here).

    With filtering the messages on a forest are no longer exact after finitely many rounds, but
    they converge to the exact ones when the filter factor is below 1. *)
From Verif Require Import Num NumFacts Arr ArrFacts Spec SpecRun SpecForest SpecCover P_Ksat P_Tsp_Sched P_Tsp_Order.
From Verif Require Import M_Tsp_Run P_Ksat_Py P_Forest P_Assign T_Tsp_Assign.
Local Open Scope nat_scope.

(** [y] is within [d] of [x] *)
Definition near (d x y : Qc) : Prop := (x - d <= y /\ y <= x + d)%Qc.

Lemma near_le d e x y : (d <= e)%Qc -> near d x y -> near e x y.
Proof. unfold near. intros H (A & B). split; qlra. Qed.
Lemma qsum_near {A} (f g : A -> Qc) d l : (forall x, In x l -> near d (f x) (g x)) ->
  near (qn (length l) * d) (qsum (map f l)) (qsum (map g l)).
Proof.
  unfold near. induction l as [|x l IH]; intros H; cbn [length qn map].
  - change (qsum []) with 0%Qc. split; qlra.
  - rewrite !qsum_cons. destruct (H x (or_introl eq_refl)). destruct IH; [intros; apply H; now right|]. split; qlra.
Qed.
Lemma small K e : (0 <= K)%Qc -> (0 < e)%Qc -> exists d, (0 < d)%Qc /\ (K * d <= e)%Qc.
Proof.
  intros HK He. exists (e / (K + 1))%Qc. assert (P : (0 < K + 1)%Qc) by qlra.
  assert (E : ((K + 1) * (e / (K + 1)) = e)%Qc) by (apply Qcmult_div_r; intros X; rewrite X in P; discriminate P).
  assert (Q : (0 < e / (K + 1))%Qc).
  { destruct (Qclt_le_dec 0 (e / (K + 1))) as [|N]; [auto|]. exfalso.
    pose proof (mul_mono _ _ (K + 1)%Qc N (Qclt_le_weak _ _ P)) as X.
    rewrite Qcmult_comm, E in X. qlra. }
  split; [exact Q|]. qlra.
Qed.

(** powers of a factor below 1 *)
Lemma pow_nonneg a k : (0 <= a)%Qc -> (0 <= a ^ k)%Qc.
Proof.
  intros H. induction k as [|k IH]; [discriminate|]. cbn [Qcpower].
  pose proof (mul_mono _ _ _ H IH) as X. qlra.
Qed.
Lemma pow_bound a k : (0 <= a)%Qc -> (a < 1)%Qc -> (a ^ k * (1 + qn k * (1 - a)) <= 1)%Qc.
Proof.
  intros H0 H1. induction k as [|k IH]; [cbn [Qcpower qn]; qlra|]. cbn [Qcpower qn].
  eapply Qcle_trans; [|exact IH].
  pose proof (pow_nonneg a k H0) as P. pose proof (qn_nonneg k) as N. set (p := (a ^ k)%Qc) in *. set (n := qn k) in *.
  assert (X : (a * (1 + (n + 1) * (1 - a)) <= 1 + n * (1 - a))%Qc).
  { assert (B : (0 <= 1 - a)%Qc) by qlra. pose proof (mul_mono _ _ _ B B) as Y.
    pose proof (mul_mono _ _ _ N (mul_mono _ _ _ B B)) as Z. qlra. }
  pose proof (mul_mono _ _ _ X P) as Y. qlra.
Qed.
Lemma pow_small a K e : (0 <= a)%Qc -> (a < 1)%Qc -> (0 < e)%Qc -> exists T, forall k, T <= k -> (a ^ k * K <= e)%Qc.
Proof.
  intros H0 H1 He. assert (Y : (0 < (1 - a) * e)%Qc).
  { rewrite <- (Qcmult_0_l e). apply Qcmult_lt_compat_r; [exact He|qlra]. }
  destruct (qn_above_mul K _ Y) as (T & HT). exists T. intros k Hk. specialize (HT k Hk).
  pose proof (pow_nonneg a k H0) as P. pose proof (pow_bound a k H0 H1) as B.
  assert (X : (K <= (1 + qn k * (1 - a)) * e)%Qc) by qlra.
  pose proof (mul_mono _ _ _ X P) as X1. pose proof (mul_mono _ _ _ B (Qclt_le_weak _ _ He)) as X2. qlra.
Qed.

(** a filter whose input stays within [d] of [L] ends up almost as near *)
Lemma filter_limit a (R D : nat -> Qc) L d T1 : (0 <= a)%Qc -> (a < 1)%Qc ->
  (forall t, D (t + 1) = (a * D t + (1 - a) * R (t + 1)%nat)%Qc) ->
  (forall t, T1 <= t -> near d L (R t)) ->
  forall e, (0 < e)%Qc -> exists T, forall t, T <= t -> near (d + e) L (D t).
Proof.
  intros H0 H1 HD HR e He.
  assert (exists K, (0 <= K)%Qc /\ near (d + K) L (D T1)) as (K & HK & N0).
  { exists (qmax0 [D T1 - L - d; L - D T1 - d]%Qc). split; [apply qmax0_nonneg|].
    pose proof (qmax0_ge [D T1 - L - d; L - D T1 - d]%Qc _ (or_introl eq_refl)).
    pose proof (qmax0_ge [D T1 - L - d; L - D T1 - d]%Qc _ (or_intror (or_introl eq_refl))).
    split; qlra. }
  assert (St : forall k, near (d + a ^ k * K) L (D (T1 + k))).
  { induction k as [|k IH].
    - rewrite Nat.add_0_r. cbn [Qcpower]. eapply near_le; [|exact N0]. qlra.
    - replace (T1 + S k) with (T1 + k + 1) by lia. destruct (HR (T1 + k + 1)) as (A1 & A2); [lia|].
      destruct IH as (B1 & B2). rewrite HD. cbn [Qcpower].
      set (x := R (T1 + k + 1)) in *. set (y := D (T1 + k)) in *. set (p := (a ^ k)%Qc) in *.
      assert (B : (0 <= 1 - a)%Qc) by qlra.
      pose proof (mul_mono _ _ _ B1 H0). pose proof (mul_mono _ _ _ B2 H0).
      pose proof (mul_mono _ _ _ A1 B). pose proof (mul_mono _ _ _ A2 B). split; qlra. }
  destruct (pow_small a K e H0 H1 He) as (T & HT). exists (T1 + T). intros t Ht.
  replace t with (T1 + (t - T1)) by lia. eapply near_le; [|apply St]. specialize (HT (t - T1)). 
  assert (T <= t - T1) by lia. specialize (HT H). qlra.
Qed.

(** finitely many events that happen eventually, happen eventually together *)
Lemma eventually {A} (P : A -> nat -> Prop) l : (forall x, In x l -> exists T, forall t, T <= t -> P x t) ->
  exists T, forall t, T <= t -> forall x, In x l -> P x t.
Proof.
  induction l as [|y l IH]; intros H.
  - exists 0. intros t _ x [].
  - destruct IH as (T1 & H1); [intros; apply H; now right|]. destruct (H y (or_introl eq_refl)) as (T2 & H2).
    exists (Nat.max T1 T2). intros t Ht x [<-|I]; [apply H2; lia|apply H1; [lia|auto]].
Qed.

Section Limit.
Variable U : list nat.
Hypothesis HU : NoDup U.
Variable cx : nat -> list nat.
Variable ok : nat -> (nat -> bool) -> Prop.
Hypothesis ok_ext : forall c a b, (forall u, In u (cx c) -> a u = b u) -> ok c a -> ok c b.
Hypothesis cx_U : forall c u, In u (cx c) -> In u U.

Lemma fsum_near f mu nu d a : (0 <= d)%Qc -> (forall u, In u U -> f u = true -> near d (mu u) (nu u)) ->
  near (qn (length U) * d) (fsum U f mu a) (fsum U f nu a).
Proof.
  intros Hd H. apply (qsum_near (fun u => if f u && a u then mu u else 0%Qc)). intros u Hu.
  destruct (f u) eqn:E; cbn [andb]; [|split; qlra]. destruct (a u); [apply H; auto|split; qlra].
Qed.
Lemma bst_near P f mu nu w b q r d : (0 <= d)%Qc -> (forall u, In u U -> f u = true -> near d (mu u) (nu u)) ->
  bst U P f mu w b q -> bst U P f nu w b r -> near (qn (length U) * d) q r.
Proof.
  intros Hd H ((a & A1 & A2 & A3) & A4) ((c & C1 & C2 & C3) & C4).
  specialize (A4 c C1 C2). specialize (C4 a A1 A2).
  destruct (fsum_near f mu nu d a Hd H). destruct (fsum_near f mu nu d c Hd H). split; qlra.
Qed.
Lemma msg_near P f mu nu w p r d : (0 <= d)%Qc -> (forall u, In u U -> f u = true -> near d (mu u) (nu u)) ->
  msg U P f mu w p -> msg U P f nu w r -> near ((qn (length U) + qn (length U)) * d) p r.
Proof.
  intros Hd H (q1 & q0 & A & B & ->) (r1 & r0 & C & D & ->).
  destruct (bst_near _ _ _ _ _ _ _ _ _ Hd H A C). destruct (bst_near _ _ _ _ _ _ _ _ _ Hd H B D). split; qlra.
Qed.

(** ** Every message has a rank, higher than those of the messages it is computed from *)
Lemma forest_rank idx : forest cx idx -> NoDup idx -> exists (r : nat -> nat -> nat) (B : nat),
  (forall c v, r c v <= B) /\
  forall c v u c', In c idx -> In c' idx -> c' <> c -> In v (cx c) -> In u (cx c) -> u <> v -> In u (cx c') ->
    r c' u < r c v.
Proof.
  induction 1 as [|i v idx Hv Hp F IH]; intros ND.
  - exists (fun _ _ => 0), 0. split; [lia|]. intros c v u c' [].
  - apply NoDup_cons_iff in ND as (Ni & ND). destruct (IH ND) as (r & B & HB & Hr).
    exists (fun c w => if c =? i then (if w =? v then 0 else B + 2) else S (r c w)), (B + 2). split.
    + intros c w. specialize (HB c w). destruct (c =? i), (w =? v); lia.
    + intros c w u c' Hc Hc' Ne Hw Hu Nu Hu'.
      destruct (Nat.eqb_spec c i) as [->|Nc]; destruct (Nat.eqb_spec c' i) as [->|Nc']; [congruence| | |].
      * destruct Hc' as [->|Hc']; [congruence|]. destruct (Nat.eqb_spec w v) as [->|Nw].
        -- exfalso. eapply (Hp u c'); eauto.
        -- specialize (HB c' u). lia.
      * destruct Hc as [->|Hc]; [congruence|]. destruct (Nat.eqb_spec u v) as [->|Nv]; [lia|].
        exfalso. eapply (Hp u c); eauto.
      * destruct Hc as [->|Hc]; [congruence|]. destruct Hc' as [->|Hc']; [congruence|].
        specialize (Hr c w u c' Hc Hc' Ne Hw Hu Nu Hu'). lia.
Qed.

(** ** Filtered schedules *)

(** [R]: messages of the constraints before filtering, [D]: after *)
Record fsched (idx : list nat) (a : Qc) (V R D : nat -> nat -> nat -> Qc) (mu : nat -> Qc) : Prop := {
  f_raw : forall t c v, In c idx -> In v (cx c) -> lmsg U cx ok c (V t c) v (R t c v);
  f_off : forall t c v, In c idx -> ~ In v (cx c) -> D t c v = 0%Qc;
  f_first : forall c v, In c idx -> In v (cx c) -> D 0 c v = ((1 - a) * R 0%nat c v)%Qc;
  f_next : forall t c v, In c idx -> In v (cx c) -> D (t + 1) c v = (a * D t c v + (1 - a) * R (t + 1)%nat c v)%Qc;
  f_in : forall t c v, In c idx -> In v (cx c) ->
           V (t + 1) c v = (mu v + qsum (map (fun c' => D t c' v) (others c idx)))%Qc }.

Lemma lmsg_ext c mu nu v d : In v (cx c) -> (forall u, In u (cx c) -> u <> v -> mu u = nu u) ->
  lmsg U cx ok c mu v d -> lmsg U cx ok c nu v d.
Proof.
  intros Hv H. apply msg_ext. intros u _ Hu. unfold inb in Hu. apply andb_true_iff in Hu as (H1 & H2).
  apply mem_In in H1. apply negb_true_iff, Nat.eqb_neq in H2. auto.
Qed.
Lemma others_In c c' idx : In c' (others c idx) -> In c' idx /\ c' <> c.
Proof. intros H. apply filter_In in H as (H & N). apply negb_true_iff, Nat.eqb_neq in N. auto. Qed.

(** a schedule is determined by its first messages *)
Lemma fsched_unique idx a mu mu' V R D V' R' D' : fsched idx a V R D mu -> fsched idx a V' R' D' mu' ->
  (forall c v, In c idx -> In v (cx c) -> mu v = mu' v) ->
  (forall c v, In c idx -> In v (cx c) -> V 0 c v = V' 0 c v) ->
  forall t c v, In c idx -> D t c v = D' t c v.
Proof.
  intros H H' Hm H0.
  assert (St : forall t, (forall c v, In c idx -> In v (cx c) -> V t c v = V' t c v) ->
     forall c v, In c idx -> In v (cx c) -> R t c v = R' t c v).
  { intros t E c v Hc Hv. eapply msg_unique; [apply (f_raw _ _ _ _ _ _ H); auto|].
    apply lmsg_ext with (mu := V' t c); [auto| |apply (f_raw _ _ _ _ _ _ H'); auto]. intros. symmetry. auto. }
  assert (G : forall t, (forall c v, In c idx -> In v (cx c) -> V t c v = V' t c v) /\
                        (forall c v, In c idx -> D t c v = D' t c v)).
  { assert (Of : forall t c v, In c idx -> (In v (cx c) -> D t c v = D' t c v) -> D t c v = D' t c v).
    { intros t c v Hc X. destruct (in_dec Nat.eq_dec v (cx c)); [auto|].
      rewrite (f_off _ _ _ _ _ _ H), (f_off _ _ _ _ _ _ H') by auto. reflexivity. }
    induction t as [|t (IV & ID)].
    - split; [auto|]. intros c v Hc. apply Of; auto. intros Hv.
      rewrite (f_first _ _ _ _ _ _ H), (f_first _ _ _ _ _ _ H'), (St 0 H0 c v) by auto. reflexivity.
    - rewrite <- Nat.add_1_r. assert (EV : forall c v, In c idx -> In v (cx c) -> V (t + 1) c v = V' (t + 1) c v).
      { intros c v Hc Hv. rewrite (f_in _ _ _ _ _ _ H), (f_in _ _ _ _ _ _ H'), (Hm c v) by auto. do 2 f_equal.
        apply map_ext_in. intros c' Hc'. apply others_In in Hc' as (Hc' & _). auto. }
      split; [exact EV|]. intros c v Hc. apply Of; auto. intros Hv.
      rewrite (f_next _ _ _ _ _ _ H), (f_next _ _ _ _ _ _ H'), (St _ EV c v), ID by auto. reflexivity. }
  intros t. apply (G t).
Qed.

(** ** Without filtering the messages stop changing *)
Lemma stationary idx V D mu r : sched U cx ok idx V D (fun _ => mu) ->
  (forall c v u c', In c idx -> In c' idx -> c' <> c -> In v (cx c) -> In u (cx c) -> u <> v -> In u (cx c') ->
    r c' u < r c v) ->
  forall n c v, In c idx -> In v (cx c) -> r c v < n -> forall t s, n <= t -> n <= s -> D t c v = D s c v.
Proof.
  intros HS Hr. induction n as [|n IH]; intros c v Hc Hv Hn t s Ht Hs; [lia|].
  assert (E : forall u, In u (cx c) -> u <> v -> V t c u = V s c u).
  { intros u Hu Nu. destruct t as [|t]; [lia|]. destruct s as [|s]; [lia|]. replace (S t) with (t + 1) by lia. replace (S s) with (s + 1) by lia.
    rewrite !(s_in _ _ _ _ _ _ _ HS) by auto. do 2 f_equal. apply map_ext_in. intros c' Hc'.
    apply others_In in Hc' as (Hc' & Ne). destruct (in_dec Nat.eq_dec u (cx c')) as [Hu'|Hu'].
    - apply IH; auto; [|lia|lia]. specialize (Hr c v u c' Hc Hc' Ne Hv Hu Nu Hu'). lia.
    - rewrite !(s_off _ _ _ _ _ _ _ HS) by auto. reflexivity. }
  eapply msg_unique; [apply (s_out _ _ _ _ _ _ _ HS); auto|].
  apply lmsg_ext with (mu := V s c); [auto| |apply (s_out _ _ _ _ _ _ _ HS); auto]. intros. symmetry. auto.
Qed.

(** ** With filtering they converge *)
Theorem forest_limit idx a V0 D0 V R D mu :
  forest cx idx -> NoDup idx -> (0 <= a)%Qc -> (a < 1)%Qc ->
  sched U cx ok idx V0 D0 (fun _ => mu) -> fsched idx a V R D mu ->
  forall w, exists d, gmsg U ok idx mu w d /\
    forall e, (0 < e)%Qc -> exists T, forall t, T <= t -> near e d (qsum (map (fun c => D t c w) idx)).
Proof.
  intros F ND A0 A1 HS HF. destruct (forest_rank idx F ND) as (r & B & HB & Hr).
  pose proof (stationary idx V0 D0 mu r HS Hr) as Stat.
  set (N := B + length idx + 2). set (L := fun c v => D0 N c v).
  assert (LO : forall c v, In c idx -> ~ In v (cx c) -> L c v = 0%Qc).
  { intros c v Hc Hv. unfold L. apply (s_off _ _ _ _ _ _ _ HS); auto. }
  set (Vs := fun c u => (mu u + qsum (map (fun c' => L c' u) (others c idx)))%Qc).
  assert (Fix : forall c v, In c idx -> In v (cx c) -> lmsg U cx ok c (Vs c) v (L c v)).
  { intros c v Hc Hv. unfold L. rewrite (Stat (B + 1) c v Hc Hv) with (s := N + 1); [|specialize (HB c v); lia|unfold N; lia|unfold N; lia].
    apply lmsg_ext with (mu := V0 (N + 1) c); [auto| |apply (s_out _ _ _ _ _ _ _ HS); auto].
    intros u Hu _. rewrite (s_in _ _ _ _ _ _ _ HS) by auto. reflexivity. }
  (* every message converges to [L] *)
  assert (Lim : forall n c v, In c idx -> In v (cx c) -> r c v < n ->
     forall e, (0 < e)%Qc -> exists T, forall t, T <= t -> near e (L c v) (D t c v)).
  { induction n as [|n IH]; intros c v Hc Hv Hn e He; [lia|].
    set (K := ((qn (length U) + qn (length U)) * qn (length idx))%Qc).
    assert (HK : (0 <= K)%Qc).
    { unfold K. pose proof (qn_nonneg (length U)) as X. assert (Y : (0 <= qn (length U) + qn (length U))%Qc) by qlra.
      pose proof (mul_mono _ _ _ Y (qn_nonneg (length idx))). qlra. }
    destruct (small (K + 1) e) as (d & Hd & Hde); [qlra|exact He|].
    assert (Ev : exists T, forall t, T <= t -> forall p, In p (list_prod idx (cx c)) ->
       fst p <> c -> snd p <> v -> near d (L (fst p) (snd p)) (D t (fst p) (snd p))).
    { apply (eventually (fun p t => fst p <> c -> snd p <> v -> near d (L (fst p) (snd p)) (D t (fst p) (snd p)))).
      intros (c', u) Hp. cbn [fst snd]. apply in_prod_iff in Hp as (Hc' & Hu).
      destruct (Nat.eq_dec c' c) as [->|Ne]; [exists 0; congruence|]. destruct (Nat.eq_dec u v) as [->|Nu]; [exists 0; congruence|].
      destruct (in_dec Nat.eq_dec u (cx c')) as [Hu'|Hu'].
      - destruct (IH c' u Hc' Hu') with (e := d) as (T & HT); auto.
        + specialize (Hr c v u c' Hc Hc' Ne Hv Hu Nu Hu'). lia.
        + exists T. intros t Ht _ _. auto.
      - exists 0. intros t _ _ _. rewrite LO, (f_off _ _ _ _ _ _ HF) by auto. split; qlra. }
    destruct Ev as (T & HT).
    assert (NR : forall t, T + 1 <= t -> near (K * d) (L c v) (R t c v)).
    { intros t Ht. unfold K. rewrite <- Qcmult_assoc.
      apply (msg_near (ok c) (inb cx c v) (Vs c) (V t c) v).
      - pose proof (mul_mono _ _ _ (qn_nonneg (length idx)) (Qclt_le_weak _ _ Hd)). qlra.
      - intros u _ Hu. unfold inb in Hu. apply andb_true_iff in Hu as (H1 & H2).
        apply mem_In in H1. apply negb_true_iff, Nat.eqb_neq in H2.
        destruct t as [|s]; [lia|]. rewrite <- Nat.add_1_r. rewrite (f_in _ _ _ _ _ _ HF) by auto. unfold Vs.
        assert (NS : near (qn (length (others c idx)) * d) (qsum (map (fun c' => L c' u) (others c idx)))
          (qsum (map (fun c' => D s c' u) (others c idx)))).
        { apply (qsum_near (fun c' => L c' u)). intros c' Hc'. apply others_In in Hc' as (Hc' & Ne).
          apply (HT s ltac:(lia) (c', u)); auto. apply in_prod; auto. }
        assert (Le : (qn (length (others c idx)) * d <= qn (length idx) * d)%Qc).
        { apply mul_mono; [|qlra]. apply qn_mono. unfold others. clear.
          induction idx as [|y l IHl]; [auto|]. cbn [filter]. destruct (negb (y =? c)); cbn [length]; lia. }
        destruct NS as (N1 & N2). split; qlra.
      - apply Fix; auto.
      - apply (f_raw _ _ _ _ _ _ HF); auto. }
    destruct (filter_limit a (fun t => R t c v) (fun t => D t c v) (L c v) (K * d)%Qc (T + 1) A0 A1) with (e := (e - K * d)%Qc)
      as (T3 & HT3); auto.
    - intros t. apply (f_next _ _ _ _ _ _ HF); auto.
    - qlra.
    - exists T3. intros t Ht. eapply near_le; [|apply HT3; auto]. qlra. }
  intros w. exists (qsum (map (fun c => L c w) idx)). split.
  - assert (Ns : N = (N - 1) + 1) by (unfold N; lia). unfold L. rewrite Ns.
    apply (forest_exact U HU cx ok ok_ext cx_U idx F ND _ _ _ mu w (sched_shift _ _ _ _ _ _ _ HS)); [auto| |unfold N; lia].
    intros c u Hc Hu Nu O. rewrite (s_in _ _ _ _ _ _ _ HS 0 c u Hc Hu).
    rewrite (qsum_none (fun c' => D0 0 c' u)); [qlra|]. intros c' Hc'. apply others_In in Hc' as (Hc' & Ne).
    apply (s_off _ _ _ _ _ _ _ HS); [auto|]. intros X. apply Ne. auto.
  - intros e He. destruct (small (qn (length idx)) e (qn_nonneg _) He) as (d & Hd & Hde).
    destruct (eventually (fun c t => near d (L c w) (D t c w)) idx) as (T & HT).
    { intros c Hc. destruct (in_dec Nat.eq_dec w (cx c)) as [Hw|Hw].
      - apply (Lim (B + 1)); auto. specialize (HB c w). lia.
      - exists 0. intros t _. rewrite LO, (f_off _ _ _ _ _ _ HF) by auto. split; qlra. }
    exists T. intros t Ht. eapply near_le; [exact Hde|]. apply (qsum_near (fun c => L c w)). intros c Hc. apply HT; auto.
Qed.
End Limit.
