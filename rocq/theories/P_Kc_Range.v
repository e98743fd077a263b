(** * KC-MWM: ranges of the messages, whatever the number of iterations. *)
From Verif Require Import NumFacts Arr ArrFacts Spec SpecRun SpecRange MinSum MinSumFacts.
From Verif Require Import P_Ksat P_Kc_Trellis P_InOut P_Tsp_Assign P_Kc_Settled P_Kc_Best P_Kc_Messages P_Float P_Schedule P_Equality P_Kc_Run P_Knapsack.
From Verif Require Import Num.
Local Open Scope nat_scope.

Definition qn (n : nat) : Qc := zq (Z.of_nat n).
Lemma qn_S n : qn (S n) = (1 + qn n)%Qc.
Proof. unfold qn. rewrite Nat2Z.inj_succ, <- Z.add_1_l, zq_add. reflexivity. Qed.
Lemma qn_nonneg n : (0 <= qn n)%Qc.
Proof. induction n; [apply Qcle_refl|]. rewrite qn_S. qlra. Qed.
Lemma qn_le m n : m <= n -> (qn m <= qn n)%Qc.
Proof. induction 1; [apply Qcle_refl|]. rewrite qn_S. qlra. Qed.
Lemma qsum_below (g : nat -> Qc) c l : (0 <= c)%Qc -> (forall y, In y l -> (g y <= c)%Qc) -> (qsum (map g l) <= qn (length l) * c)%Qc.
Proof.
  intros Hc. induction l as [|y l IH]; intros H; [change (0 <= 0 * c)%Qc; rewrite Qcmult_0_l; apply Qcle_refl|]. cbn [map length]. rewrite qsum_cons, qn_S.
  pose proof (H y (or_introl eq_refl)). specialize (IH (fun z I => H z (or_intror I))). qlra.
Qed.

(** a department that every one of its teams fits into *)
Lemma department_above (v : nat -> nat) (f : nat -> Qc) l cap i x q c : NoDup l -> nth_error l i = Some x -> v x <= cap ->
  minsum_message (within (map v l) cap) (map f l) i (Fin q) -> (0 <= c)%Qc -> (forall y, In y l -> (- c <= f y)%Qc) ->
  (q <= qn (length l) * c)%Qc.
Proof.
  intros N Hx Hv M Hc Hf. destruct (message_sets l f v cap i x q N Hx M) as (s1 & s0 & S1 & S0 & L1 & L0 & -> & M1 & M0).
  assert (Ix : In x l) by (eapply nth_error_In; eauto).
  set (z := fun _ : nat => false).
  pose proof (load_put v l z x true N Ix) as A. pose proof (cost_put f l z x true N Ix) as B. cbn [z] in A, B.
  assert (Z1 : load v l z = 0) by (unfold load, z; clear; induction l as [|y l IH]; [reflexivity|exact IH]).
  assert (Z2 : cost f l z = 0%Qc) by (unfold cost, z; apply qsum_zero; auto).
  specialize (M1 (put z x true) (put_same _ _ _) ltac:(fold z in A; lia)). fold z in B. rewrite B, Z2 in M1.
  assert (X : (qsum (map (fun y => - (if s0 y then f y else 0))%Qc l) <= qn (length l) * c)%Qc).
  { apply qsum_below; auto. intros y Iy. specialize (Hf y Iy). destruct (s0 y); qlra. }
  assert (Y : qsum (map (fun y => - (if s0 y then f y else 0))%Qc l) = (- cost f l s0)%Qc).
  { unfold cost. clear. induction l as [|y l IH]; [reflexivity|]. cbn [map]. rewrite !qsum_cons, IH. ring. }
  qlra.
Qed.

(** filtering stays between the bounds *)
Lemma filtered_range (flag : bool) a d c : (flag = true -> 0 <= a /\ a <= 1)%Qc -> (forall t, (0 <= d t)%Qc) ->
  forall t, (0 <= filtered flag a d t)%Qc /\ ((forall i, i <= t -> (d i <= c)%Qc) -> (filtered flag a d t <= c)%Qc).
Proof.
  intros Ha Hd.
  assert (E : (0 <= effective flag a /\ effective flag a <= 1)%Qc).
  { unfold effective. destruct flag; cbn [andb]; [destruct (negb _); [auto|]|]; split; qlra. }
  destruct E as (E0 & E1). set (e := effective flag a) in *.
  assert (Mul : forall x, (0 <= x)%Qc -> (0 <= e * x)%Qc /\ (0 <= (1 - e) * x)%Qc).
  { intros x Hx. split; [pose proof (Qcmult_le_compat_r _ _ x E0 Hx) as P|pose proof (Qcmult_le_compat_r 0%Qc (1 - e)%Qc x ltac:(qlra) Hx) as P];
      rewrite Qcmult_0_l in P; exact P. }
  induction t as [|t (IH1 & IH2)].
  - rewrite filtered_0. fold e. split; [apply Mul, Hd|]. intros H. specialize (H 0 ltac:(lia)).
    destruct (Mul (d 0)) as (P1 & _); [apply Hd|]. qlra.
  - rewrite filtered_S. fold e. split.
    + destruct (Mul _ IH1) as (P1 & _). destruct (Mul (d (S t))) as (_ & P2); [apply Hd|]. qlra.
    + intros H. specialize (IH2 (fun i Hi => H i ltac:(lia))). specialize (H (S t) ltac:(lia)).
      destruct (Mul (c - filtered flag a d t)%Qc) as (P1 & _); [qlra|]. destruct (Mul (c - d (S t))%Qc) as (_ & P2); [qlra|]. qlra.
Qed.

Lemma within_moderate T P R reward B c : P <> 0 -> rewards_within T P R reward B -> (B + B + B <= c)%Qc -> moderate T P R reward c.
Proof.
  intros HP (HB & Hr & HR) Hc x Hx. exists 0. destruct (HR 0 x ltac:(lia) Hx). split; [lia|]. split; [qlra|].
  intros y Hy _. destruct (HR 0 y ltac:(lia) Hy), (Hr y Hy). qlra.
Qed.

Section Range.
Variables (T D P : nat) (W : list (list nat)) (R : list (list Qc)) (reward : list Qc) (caps : list nat) (flag : bool) (alpha : Qc).
Hypothesis HWs : shape D T W.
Hypothesis Hcaps : length caps = D.
Hypothesis Hfit : forall d ws cap, nth_error W d = Some ws -> nth_error caps d = Some cap -> Forall (fun w => w <= cap) ws.
Hypothesis Ha : (flag = true -> 0 <= alpha /\ alpha <= 1)%Qc.
Variables (K EO Dm X : nat -> list (list Qc)) (TO : nat -> list Qc) (CE EP PE : nat -> list (list Qc)) (OT : nat -> list Qc).
Hypothesis HEO0 : forall p x, qat (EO 0) p x = 0%Qc.
Hypothesis HK0 : forall d x, d < D -> x < T -> qat (K 0) d x = if takes_part W d x then nth x reward 0%Qc else 0%Qc.
Hypothesis HEP : forall t, shape P T (EP t).
Hypothesis Hrun : forall t,
         (forall d ws cap, nth_error W d = Some ws -> nth_error caps d = Some cap ->
            (forall i x, nth_error (participants T ws) i = Some x ->
               minsum_message (within (map (fun x => nth x ws 0) (participants T ws)) cap)
                 (map (fun x => qat (K t) d x) (participants T ws)) i (Fin (qat (Dm t) d x))) /\
            (forall x, x < T -> takes_part W d x = false -> qat (Dm t) d x = 0%Qc)) /\
         (forall d x, d < D -> x < T ->
            qat (X t) d x = filtered flag alpha (fun i => qat (Dm i) d x) t) /\
         (forall x, x < T ->
            nth x (TO t) 0%Qc = (nth x reward 0 + qsum (map (fun d => qat (X t) d x) (seq 0 D)))%Qc) /\
         (forall p x, p < P -> x < T ->
            minsum_message coupled (nth x (TO t) 0%Qc :: col (EO t) P x) (S p) (Fin (qat (CE t) p x)) /\
            qat (EP t) p x = (qat (CE t) p x + qat R p x)%Qc /\
            minsum_message at_most_one (nth p (EP t) []) x (Fin (qat (PE t) p x)) /\
            qat (EO (t + 1)) p x = (qat (PE t) p x + qat R p x)%Qc) /\
         (forall x, x < T -> exists v,
            minsum_message coupled (nth x (TO t) 0%Qc :: col (EO (t + 1)) P x) 0 v /\
            Fin (nth x (OT t) 0%Qc) = nmin (zn 1000000) v) /\
         (forall d x, d < D -> x < T -> qat (K (t + 1)) d x =
            if takes_part W d x then
              (nth x reward 0 + nth x (OT t) 0 +
               qsum (map (fun d' => qat (X t) d' x)
                      (filter (fun d' => takes_part W d' x) (others d (seq 0 D)))))%Qc
            else 0%Qc).

Lemma part_in d x : x < T -> In x (participants T (nth d W [])) <-> takes_part W d x = true.
Proof.
  intros Hx. unfold participants, takes_part. rewrite filter_In, in_seq. intuition lia.
Qed.
Lemma Dm_low t d x : d < D -> x < T -> (0 <= qat (Dm t) d x)%Qc.
Proof.
  intros Hd Hx. destruct (Hrun t) as (A & _).
  destruct (A d (nth d W []) (nth d caps 0)) as (A1 & A2); [apply nth_error_nth'; destruct HWs; lia|apply nth_error_nth'; lia|].
  destruct (takes_part W d x) eqn:Q; [|rewrite A2 by auto; apply Qcle_refl].
  apply part_in, In_nth_error in Q as (i & Hi); auto. eapply department_nonneg; [|exact Hi|exact (A1 i x Hi)].
  unfold participants. apply NoDup_filter, seq_NoDup.
Qed.
Lemma X_low t d x : d < D -> x < T -> (0 <= qat (X t) d x)%Qc.
Proof.
  intros Hd Hx. destruct (Hrun t) as (_ & A & _). rewrite A by auto.
  apply (filtered_range flag alpha (fun i => qat (Dm i) d x) 0%Qc); auto. intros i. apply Dm_low; auto.
Qed.
Lemma TO_low t x : x < T -> (nth x reward 0 <= nth x (TO t) 0)%Qc.
Proof.
  intros Hx. destruct (Hrun t) as (_ & _ & A & _). rewrite A by auto.
  assert (Y : (0 <= qsum (map (fun d => qat (X t) d x) (seq 0 D)))%Qc).
  { apply qsum_ge0. intros d I. apply in_seq in I. apply X_low; lia. }
  qlra.
Qed.
Lemma CE_facts t p x : p < P -> x < T -> (nth x (TO t) 0 <= qat (CE t) p x)%Qc /\
  (qat (CE t) p x = nth x (TO t) 0%Qc \/ exists p', p' < P /\ p' <> p /\ qat (CE t) p x = (- qat (EO t) p' x)%Qc).
Proof.
  intros Hp Hx. destruct (Hrun t) as (_ & _ & _ & A & _). destruct (A p x Hp Hx) as (M & _). unfold col in M.
  apply (team_project_facts _ _ _ _ p) in M; [|apply seq_NoDup|apply nth_error_seq_lt; lia]. destruct M as (M1 & _ & M2).
  split; [exact M1|]. destruct M2 as [|(j & I & N & E)]; [now left|right]. exists j. apply in_seq in I. repeat split; auto. lia.
Qed.
Lemma PE_facts t p x : p < P -> x < T -> (0 <= qat (PE t) p x)%Qc /\
  (qat (PE t) p x = 0%Qc \/ exists y, y < T /\ y <> x /\ qat (PE t) p x = (- qat (EP t) p y)%Qc).
Proof.
  intros Hp Hx. destruct (Hrun t) as (_ & _ & _ & A & _). destruct (A p x Hp Hx) as (_ & _ & M & _).
  assert (L : length (nth p (EP t) []) = T) by (apply (shape_nth P T); auto).
  rewrite <- (map_nth_seq (nth p (EP t) []) 0%Qc), L in M.
  apply (project_facts _ _ _ x) in M; [|apply seq_NoDup|apply nth_error_seq_lt; lia]. destruct M as (M1 & _ & M2).
  split; [exact M1|]. destruct M2 as [|(j & I & N & E)]; [now left|right]. exists j. apply in_seq in I. repeat split; auto. lia.
Qed.
Lemma EP_low t p x : p < P -> x < T -> (nth x reward 0 + qat R p x <= qat (EP t) p x)%Qc.
Proof.
  intros Hp Hx. destruct (Hrun t) as (_ & _ & _ & A & _). destruct (A p x Hp Hx) as (_ & E & _). rewrite E.
  pose proof (TO_low t x Hx). destruct (CE_facts t p x Hp Hx) as (Y & _). qlra.
Qed.
(** [c] bounds what a pair can send to the coupling constraint of its team *)
Lemma EO_high c t p x : p < P -> x < T -> (qat R p x <= c)%Qc ->
  (forall y, y < T -> y <> x -> (qat R p x - (qat R p y + nth y reward 0) <= c)%Qc) -> (qat (EO (t + 1)) p x <= c)%Qc.
Proof.
  intros Hp Hx H0 H1. destruct (Hrun t) as (_ & _ & _ & A & _). destruct (A p x Hp Hx) as (_ & _ & _ & E). rewrite E.
  destruct (PE_facts t p x Hp Hx) as (_ & [->|(y & Hy & N & ->)]); [qlra|]. pose proof (EP_low t p y Hp Hy). specialize (H1 y Hy N). qlra.
Qed.
Lemma EO_low t p x : p < P -> x < T -> (qat R p x <= qat (EO (t + 1)) p x)%Qc.
Proof.
  intros Hp Hx. destruct (Hrun t) as (_ & _ & _ & A & _). destruct (A p x Hp Hx) as (_ & _ & _ & E). rewrite E.
  destruct (PE_facts t p x Hp Hx) as (Y & _). qlra.
Qed.
Lemma OT_facts t x : x < T -> (nth x (OT t) 0 <= zq 1000000)%Qc /\ (forall p, p < P -> (nth x (OT t) 0 <= qat (EO (t + 1)) p x)%Qc) /\
  (nth x (OT t) 0%Qc = zq 1000000 \/ exists p, p < P /\ nth x (OT t) 0%Qc = qat (EO (t + 1)) p x).
Proof.
  intros Hx. destruct (Hrun t) as (_ & _ & _ & _ & A & _). destruct (A x Hx) as (v & M & E).
  pose proof (minsum_message_unique _ _ _ _ _ M (coupled_team_message _ _)) as ->.
  destruct (nmin_nmins (zq 1000000) (col (EO (t + 1)) P x)) as (m & E' & M0 & M1 & M2).
  unfold zn in E. rewrite E' in E. injection E as E. rewrite E. split; [exact M0|]. unfold col in M1, M2. split.
  - intros p Hp. apply M1, in_map_iff. exists p. split; [reflexivity|apply in_seq; lia].
  - destruct M2 as [|I]; [now left|right]. apply in_map_iff in I as (p & <- & I). apply in_seq in I. exists p. split; [lia|reflexivity].
Qed.

(** ** The constant has no effect *)
Lemma OT_exact t x : x < T -> moderate T P R reward (zq 1000000) ->
  minsum_message coupled (nth x (TO t) 0%Qc :: col (EO (t + 1)) P x) 0 (Fin (nth x (OT t) 0%Qc)).
Proof.
  intros Hx Mo. destruct (Mo x Hx) as (p & Hp & B1 & B2). pose proof (EO_high _ t p x Hp Hx B1 B2) as Hi.
  destruct (Hrun t) as (_ & _ & _ & _ & A & _). destruct (A x Hx) as (v & M & E).
  replace (Fin (nth x (OT t) 0%Qc)) with v; [exact M|]. rewrite E. clear E.
  pose proof (minsum_message_unique _ _ _ _ _ M (coupled_team_message _ _)) as ->.
  assert (I : In (qat (EO (t + 1)) p x) (col (EO (t + 1)) P x)) by (unfold col; apply in_map_iff; exists p; split; [reflexivity|apply in_seq; lia]).
  pose proof (nmins_is_min (col (EO (t + 1)) P x)) as Mi. destruct (nmins (map Fin (col (EO (t + 1)) P x))) as [r| | |]; cbn in Mi; try contradiction.
  - destruct Mi as (_ & Mi). specialize (Mi _ I). unfold nmin, zn. cbn [nlt]. destruct (qltb_spec r (zq 1000000)) as [|Ge]; [reflexivity|].
    f_equal. apply Qcle_antisym; qlra.
  - destruct (Mi _ I).
Qed.

(** ** Ranges *)
Variable B : Qc.
Hypothesis Hr : forall x, x < T -> (- B <= nth x reward 0 /\ nth x reward 0 <= B)%Qc.
Hypothesis HR : forall p x, p < P -> x < T -> (- B <= qat R p x /\ qat R p x <= B)%Qc.
Hypothesis HP : P <> 0.
Hypothesis HB : (0 <= B)%Qc.
Let Y : Qc := (qn T * (B + B))%Qc.

Lemma EO_range t p x : p < P -> x < T -> (- B <= qat (EO t) p x)%Qc /\ (qat (EO t) p x <= B + B + B)%Qc.
Proof.
  intros Hp Hx. destruct t as [|t]; [rewrite HEO0; split; qlra|]. replace (S t) with (t + 1) by lia.
  destruct (HR p x Hp Hx) as (L & H). split.
  - pose proof (EO_low t p x Hp Hx). qlra.
  - apply EO_high; auto; [qlra|]. intros y Hy _. destruct (HR p y Hp Hy), (Hr y Hy). qlra.
Qed.
Lemma OT_range t x : x < T -> (- B <= nth x (OT t) 0)%Qc /\ (nth x (OT t) 0 <= B + B + B)%Qc.
Proof.
  intros Hx. destruct (OT_facts t x Hx) as (_ & O1 & O2). split.
  - destruct O2 as [->|(p & Hp & ->)]; [|apply EO_range; auto]. assert (0 <= zq 1000000)%Qc by discriminate. qlra.
  - specialize (O1 0 ltac:(lia)). destruct (EO_range (t + 1) 0 x ltac:(lia) Hx). qlra.
Qed.
Lemma K_low t d x : d < D -> x < T -> (- (B + B) <= qat (K t) d x)%Qc.
Proof.
  intros Hd Hx. destruct (Hr x Hx). destruct t as [|t].
  - rewrite HK0 by auto. destruct (takes_part W d x); qlra.
  - replace (S t) with (t + 1) by lia. destruct (Hrun t) as (_ & _ & _ & _ & _ & A). rewrite A by auto. destruct (takes_part W d x); [|qlra].
    destruct (OT_range t x Hx). match goal with |- context [qsum ?l] => assert (Z : (0 <= qsum l)%Qc) end; [|qlra].
    apply qsum_ge0. intros d' I. apply filter_In in I as (I & _). unfold others in I. apply filter_In in I as (I & _). apply in_seq in I.
    apply X_low; lia.
Qed.
Lemma Y_nonneg : (0 <= Y)%Qc.
Proof. unfold Y. rewrite <- (Qcmult_0_l (B + B)). apply Qcmult_le_compat_r; [apply qn_nonneg|qlra]. Qed.
Lemma Dm_high t d x : d < D -> x < T -> (qat (Dm t) d x <= Y)%Qc.
Proof.
  intros Hd Hx. destruct (Hrun t) as (A & _).
  assert (Gw : nth_error W d = Some (nth d W [])) by (apply nth_error_nth'; destruct HWs; lia).
  assert (Gc : nth_error caps d = Some (nth d caps 0)) by (apply nth_error_nth'; lia).
  destruct (A _ _ _ Gw Gc) as (A1 & A2).
  destruct (takes_part W d x) eqn:Q; [|rewrite A2 by auto; apply Y_nonneg].
  apply part_in, In_nth_error in Q as (i & Hi); auto.
  apply Qcle_trans with (qn (length (participants T (nth d W []))) * (B + B))%Qc.
  - eapply department_above; [|exact Hi| |exact (A1 i x Hi)|qlra|].
    + unfold participants. apply NoDup_filter, seq_NoDup.
    + pose proof (Hfit _ _ _ Gw Gc) as Fi. rewrite Forall_forall in Fi. destruct HWs as (LW & FW). rewrite Forall_forall in FW.
      apply Fi, nth_In. rewrite (FW (nth d W [])); [exact Hx|]. apply nth_In. lia.
    + intros y I. unfold participants in I. apply filter_In in I as (I & _). apply in_seq in I. apply K_low; lia.
  - apply Qcmult_le_compat_r; [|qlra]. apply qn_le. unfold participants. etransitivity; [apply filter_length_le|]. now rewrite seq_length.
Qed.
Lemma X_high t d x : d < D -> x < T -> (qat (X t) d x <= Y)%Qc.
Proof.
  intros Hd Hx. destruct (Hrun t) as (_ & A & _). rewrite A by auto.
  apply (filtered_range flag alpha (fun i => qat (Dm i) d x) Y); auto.
  - intros i. apply Dm_low; auto.
  - intros i _. apply Dm_high; auto.
Qed.
Lemma X_sum t x : x < T -> (0 <= qsum (map (fun d => qat (X t) d x) (seq 0 D)))%Qc /\
  (qsum (map (fun d => qat (X t) d x) (seq 0 D)) <= qn D * Y)%Qc.
Proof.
  intros Hx. split.
  - apply qsum_ge0. intros d I. apply in_seq in I. apply X_low; lia.
  - replace (qn D) with (qn (length (seq 0 D))) by (now rewrite seq_length). apply qsum_below; [apply Y_nonneg|].
    intros d I. apply in_seq in I. apply X_high; lia.
Qed.
Lemma CE_range t p x : p < P -> x < T -> (- B <= qat (CE t) p x)%Qc /\ (qat (CE t) p x <= B + qn D * Y)%Qc.
Proof.
  intros Hp Hx. destruct (Hr x Hx). destruct (X_sum t x Hx) as (X1 & X2). destruct (CE_facts t p x Hp Hx) as (C1 & C2).
  pose proof (TO_low t x Hx). split; [qlra|]. destruct C2 as [->|(p' & Hp' & _ & ->)].
  - destruct (Hrun t) as (_ & _ & A & _). rewrite A by auto. qlra.
  - destruct (EO_range t p' x Hp' Hx). qlra.
Qed.
Lemma PE_range t p x : p < P -> x < T -> (0 <= qat (PE t) p x)%Qc /\ (qat (PE t) p x <= B + B)%Qc.
Proof.
  intros Hp Hx. destruct (PE_facts t p x Hp Hx) as (P1 & P2). split; [exact P1|]. destruct P2 as [->|(y & Hy & _ & ->)]; [qlra|].
  pose proof (EP_low t p y Hp Hy). destruct (HR p y Hp Hy), (Hr y Hy). qlra.
Qed.
End Range.
