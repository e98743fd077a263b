(** * How far changes of the rewards travel in KC-MWM: proofs for C98. *)
From Verif Require Import NumFacts Arr ArrFacts Spec SpecRun MinSum MinSumFacts.
From Verif Require Import P_Ksat P_Kc_Trellis P_InOut P_Tsp_Assign P_Kc_Settled P_Kc_Best P_Kc_Messages P_Schedule P_Equality P_Kc_Run P_Knapsack P_Kc_Range.
From Verif Require SpecWithin P_Stable P_Ksat_Range.
From Verif Require Import Num.
Local Open Scope nat_scope.
Local Notation near := SpecWithin.within.

Lemma near_plus e1 e2 a b c d : near e1 a b -> near e2 c d -> near (e1 + e2)%Qc (a + c)%Qc (b + d)%Qc.
Proof. unfold near. intros (A & B) (C & E). split; qlra. Qed.
Lemma near_le e1 e2 a b : near e1 a b -> (e1 <= e2)%Qc -> near e2 a b.
Proof. unfold near. intros (A & B) H. split; qlra. Qed.
Lemma near_refl e a : (0 <= e)%Qc -> near e a a.
Proof. unfold near. intros H. split; qlra. Qed.
Lemma near_0 e a b : near e a b -> (0 <= e)%Qc.
Proof. unfold near. intros (A & B). qlra. Qed.

(** a minimum over selections within a capacity *)
Lemma cost_near (f g : nat -> Qc) l s U : (0 <= U)%Qc -> (forall y, In y l -> near U (f y) (g y)) -> near (qn (length l) * U)%Qc (cost f l s) (cost g l s).
Proof.
  intros HU H. unfold cost. apply P_Stable.sum_within. intros y I. destruct (s y); [apply H, I|apply near_refl, HU].
Qed.
(** the message of a department: difference of two minimal costs, the own value not counted *)
Lemma department_near (v : nat -> nat) (f g : nat -> Qc) l cap i x q q' U : NoDup l -> nth_error l i = Some x ->
  minsum_message (within (map v l) cap) (map f l) i (Fin q) -> minsum_message (within (map v l) cap) (map g l) i (Fin q') ->
  (0 <= U)%Qc -> (forall y, In y l -> near U (f y) (g y)) -> near (qn (2 * length l) * U)%Qc q q'.
Proof.
  intros N Hx M M' HU H.
  (* the own value of [x] has no influence: give it the same value on both sides *)
  set (g' := fun y => if y =? x then f x else g y).
  assert (Ix : In x l) by (eapply nth_error_In; eauto).
  destruct (message_sets l f v cap i x q N Hx M) as (s1 & s0 & S1 & S0 & L1 & L0 & -> & M1 & M0).
  destruct (message_sets l g v cap i x q' N Hx M') as (r1 & r0 & R1 & R0 & K1 & K0 & -> & N1 & N0).
  assert (G : forall s, cost g' l s = (cost g l s + (if s x then f x - g x else 0))%Qc).
  { intros s. clear -N Ix. unfold cost. induction l as [|y l IH]; [destruct Ix|]. cbn [map]. rewrite !qsum_cons. inversion_clear N as [|? ? Ny Nl].
    destruct (Nat.eq_dec y x) as [->|Ne].
    - replace (qsum (map (fun y => if s y then g' y else 0%Qc) l)) with (qsum (map (fun y => if s y then g y else 0%Qc) l)).
      + unfold g'. rewrite Nat.eqb_refl. destruct (s x); ring.
      + f_equal. apply map_ext_in. intros z Iz. unfold g'. destruct (Nat.eqb_spec z x) as [->|]; [contradiction|reflexivity].
    - destruct Ix as [|Ix]; [congruence|]. rewrite IH by auto. unfold g' at 1. destruct (Nat.eqb_spec y x); [contradiction|]. ring. }
  assert (H' : forall y, In y l -> near U (f y) (g' y)).
  { intros y I. unfold g'. destruct (Nat.eqb_spec y x) as [->|]; [apply near_refl, HU|apply H, I]. }
  pose proof (cost_near f g' l s1 U HU H') as A1. pose proof (cost_near f g' l s0 U HU H') as A0.
  pose proof (cost_near f g' l r1 U HU H') as B1. pose proof (cost_near f g' l r0 U HU H') as B0.
  rewrite G, S1 in A1. rewrite G, S0 in A0. rewrite G, R1 in B1. rewrite G, R0 in B0.
  specialize (M1 r1 R1 K1). specialize (M0 r0 R0 K0). specialize (N1 s1 S1 L1). specialize (N0 s0 S0 L0).
  rewrite P_Ksat_Range.qn_mul. change (qn 2) with (1 + 1)%Qc. set (y := (qn (length l) * U)%Qc) in *.
  replace ((1 + 1) * qn (length l) * U)%Qc with (y + y)%Qc by (unfold y; ring).
  unfold near in *. split; qlra.
Qed.

(** a maximum of a value and of negated values *)
Lemma max_near (In_ : nat -> Prop) (f f' : nat -> Qc) t t' d d' U : near U t t' -> (forall j, In_ j -> near U (f j) (f' j)) ->
  (t <= d)%Qc /\ (forall j, In_ j -> (- f j <= d)%Qc) /\ (d = t \/ exists j, In_ j /\ d = (- f j)%Qc) ->
  (t' <= d')%Qc /\ (forall j, In_ j -> (- f' j <= d')%Qc) /\ (d' = t' \/ exists j, In_ j /\ d' = (- f' j)%Qc) -> near U d d'.
Proof.
  intros Ht H (A & B & C) (A' & B' & C'). unfold near in *. split.
  - destruct C' as [->|(j & I & ->)]; [qlra|]. specialize (H j I). specialize (B j I). qlra.
  - destruct C as [->|(j & I & ->)]; [qlra|]. specialize (H j I). specialize (B' j I). qlra.
Qed.

Lemma others_le (f : nat -> bool) d n : length (filter f (others d (seq 0 n))) <= n.
Proof.
  unfold others. rewrite <- (seq_length n 0) at 2. generalize (seq 0 n). intros l.
  induction l as [|a l IH]; [reflexivity|]. cbn [filter]. destruct (negb _); cbn [filter length]; [destruct (f a); cbn [length]; lia|lia].
Qed.

Section Two.
Variables (T D P : nat) (W : list (list nat)) (caps : list nat) (flag : bool) (alpha : Qc).
Hypothesis HWs : shape D T W.
Hypothesis Hcaps : length caps = D.
Hypothesis Ha : (flag = true -> 0 <= alpha /\ alpha <= 1)%Qc.

(** the equations of a run, as in C50 *)
Definition kc_steps (R : list (list Qc)) (reward : list Qc) (K EO Dm X : nat -> list (list Qc)) (TO : nat -> list Qc)
  (CE EP PE : nat -> list (list Qc)) (OT : nat -> list Qc) : Prop := forall t,
         (forall d ws cap, nth_error W d = Some ws -> nth_error caps d = Some cap ->
            (forall i x, nth_error (participants T ws) i = Some x ->
               minsum_message (within (map (fun x => nth x ws 0) (participants T ws)) cap)
                 (map (fun x => qat (K t) d x) (participants T ws)) i (Fin (qat (Dm t) d x))) /\
            (forall x, x < T -> takes_part W d x = false -> qat (Dm t) d x = 0%Qc)) /\
         (forall d x, d < D -> x < T ->
            qat (X t) d x = filtered flag alpha (fun i => qat (Dm i) d x) t) /\
         (forall x, x < T ->
            nth x (TO t) 0%Qc = (nth x reward 0 + qsum (map (fun d => qat (X t) d x) (seq 0 D)))%Qc) /\
         (forall p x, p < P -> x < T ->
            minsum_message coupled (nth x (TO t) 0%Qc :: col (EO t) P x) (S p) (Fin (qat (CE t) p x)) /\
            qat (EP t) p x = (qat (CE t) p x + qat R p x)%Qc /\
            minsum_message at_most_one (nth p (EP t) []) x (Fin (qat (PE t) p x)) /\
            qat (EO (t + 1)) p x = (qat (PE t) p x + qat R p x)%Qc) /\
         (forall x, x < T -> exists v,
            minsum_message coupled (nth x (TO t) 0%Qc :: col (EO (t + 1)) P x) 0 v /\
            Fin (nth x (OT t) 0%Qc) = nmin (zn 1000000) v) /\
         (forall d x, d < D -> x < T -> qat (K (t + 1)) d x =
            if takes_part W d x then
              (nth x reward 0 + nth x (OT t) 0 +
               qsum (map (fun d' => qat (X t) d' x)
                      (filter (fun d' => takes_part W d' x) (others d (seq 0 D)))))%Qc
            else 0%Qc).

Variables (R R' : list (list Qc)) (reward reward' : list Qc).
Variables (K EO Dm X : nat -> list (list Qc)) (TO : nat -> list Qc) (CE EP PE : nat -> list (list Qc)) (OT : nat -> list Qc).
Variables (K' EO' Dm' X' : nat -> list (list Qc)) (TO' : nat -> list Qc) (CE' EP' PE' : nat -> list (list Qc)) (OT' : nat -> list Qc).
Hypothesis HEO0 : forall p x, qat (EO 0) p x = 0%Qc.
Hypothesis HEO0' : forall p x, qat (EO' 0) p x = 0%Qc.
Hypothesis HK0 : forall d x, d < D -> x < T -> qat (K 0) d x = if takes_part W d x then nth x reward 0%Qc else 0%Qc.
Hypothesis HK0' : forall d x, d < D -> x < T -> qat (K' 0) d x = if takes_part W d x then nth x reward' 0%Qc else 0%Qc.
Hypothesis HEP : forall t, shape P T (EP t).
Hypothesis HEP' : forall t, shape P T (EP' t).
Hypothesis H1 : kc_steps R reward K EO Dm X TO CE EP PE OT.
Hypothesis H2 : kc_steps R' reward' K' EO' Dm' X' TO' CE' EP' PE' OT'.
Variable e : Qc.
Hypothesis He : (0 <= e)%Qc.
Hypothesis Hr : forall x, x < T -> near e (nth x reward 0%Qc) (nth x reward' 0%Qc).
Hypothesis HR : forall p x, p < P -> x < T -> near e (qat R p x) (qat R' p x).

Definition L : nat := 6 + 4 * (D * T).
Definition spread (t : nat) : Qc := (qn (L ^ t) * e)%Qc.
Lemma spread_e t : (e <= spread t)%Qc.
Proof.
  unfold spread. assert (A : (qn 1 <= qn (L ^ t))%Qc).
  { apply qn_le. assert (L ^ t <> 0) by (apply Nat.pow_nonzero; unfold L; lia). lia. }
  pose proof (Qcmult_le_compat_r _ _ e A He) as B. change (qn 1) with 1%Qc in B. qlra.
Qed.
Lemma spread_mono i t : i <= t -> (spread i <= spread t)%Qc.
Proof. intros H. unfold spread. apply Qcmult_le_compat_r; auto. apply qn_le, Nat.pow_le_mono_r; [unfold L; lia|exact H]. Qed.
Lemma spread_S t : spread (t + 1) = (qn 6 * spread t + qn (4 * (D * T)) * spread t)%Qc.
Proof. unfold spread. replace (t + 1) with (S t) by lia. cbn [Nat.pow]. unfold L at 1. rewrite P_Ksat_Range.qn_mul, P_Ksat_Range.qn_add. ring. Qed.
(** the share of the departments of a team *)
Definition shares (t : nat) : Qc := (qn (2 * (D * T)) * spread t)%Qc.
Lemma shares_0 t : (0 <= shares t)%Qc.
Proof.
  unfold shares. pose proof (spread_e t). pose proof (Qcmult_le_compat_r _ _ (spread t) (qn_nonneg (2 * (D * T))) ltac:(qlra)) as B.
  rewrite Qcmult_0_l in B. exact B.
Qed.
Lemma spread_next t : spread (t + 1) = (spread t + spread t + spread t + spread t + spread t + spread t + shares t + shares t)%Qc.
Proof.
  rewrite spread_S. unfold shares. replace (4 * (D * T)) with (2 * (D * T) + 2 * (D * T)) by lia. rewrite P_Ksat_Range.qn_add.
  change (qn 6) with (1 + 1 + 1 + 1 + 1 + 1)%Qc. ring.
Qed.

Lemma Dm_near t : (forall d x, d < D -> x < T -> near (spread t) (qat (K t) d x) (qat (K' t) d x)) ->
  forall d x, d < D -> x < T -> near (qn (2 * T) * spread t)%Qc (qat (Dm t) d x) (qat (Dm' t) d x).
Proof.
  intros HK d x Hd Hx. destruct (H1 t) as (A & _). destruct (H2 t) as (A' & _). pose proof (spread_e t) as Se.
  assert (Nw : nth_error W d = Some (nth d W [])) by (apply nth_error_nth'; destruct HWs; lia).
  assert (Nc : nth_error caps d = Some (nth d caps 0)) by (apply nth_error_nth'; lia).
  destruct (A d _ _ Nw Nc) as (A1 & A2). destruct (A' d _ _ Nw Nc) as (A1' & A2').
  assert (LT : length (participants T (nth d W [])) <= T).
  { unfold participants. rewrite <- (seq_length T 0) at 2. generalize (seq 0 T). intros l. induction l as [|a l IH]; [reflexivity|]. cbn [filter]. destruct (negb _); cbn [length]; lia. }
  destruct (takes_part W d x) eqn:Q.
  - apply (part_in T D W caps Hcaps d x Hx), In_nth_error in Q as (i & Hi).
    eapply near_le.
    + eapply department_near; [|exact Hi|exact (A1 i x Hi)|exact (A1' i x Hi)| |].
      * unfold participants. apply NoDup_filter, seq_NoDup.
      * instantiate (1 := spread t). qlra.
      * intros y Iy. apply HK; auto. unfold participants in Iy. apply filter_In in Iy as (Iy & _). apply in_seq in Iy. lia.
    + apply Qcmult_le_compat_r; [|qlra]. apply qn_le. lia.
  - rewrite A2, A2' by auto. apply near_refl. pose proof (Qcmult_le_compat_r _ _ (spread t) (qn_nonneg (2 * T)) ltac:(qlra)) as B.
    rewrite Qcmult_0_l in B. exact B.
Qed.
Lemma X_near t : (forall i, i <= t -> forall d x, d < D -> x < T -> near (spread i) (qat (K i) d x) (qat (K' i) d x)) ->
  forall d x, d < D -> x < T -> near (qn (2 * T) * spread t)%Qc (qat (X t) d x) (qat (X' t) d x).
Proof.
  intros HK d x Hd Hx. destruct (H1 t) as (_ & A & _). destruct (H2 t) as (_ & A' & _). rewrite A, A' by auto.
  apply P_Stable.filtered_within; auto.
  - pose proof (spread_e t) as Se. pose proof (Qcmult_le_compat_r _ _ (spread t) (qn_nonneg (2 * T)) ltac:(qlra)) as B. rewrite Qcmult_0_l in B. exact B.
  - intros i Hi. eapply near_le; [apply Dm_near; auto|]. rewrite !(Qcmult_comm (qn (2 * T))). apply Qcmult_le_compat_r; [apply spread_mono, Hi|apply qn_nonneg].
Qed.
Lemma Xs_near t : (forall i, i <= t -> forall d x, d < D -> x < T -> near (spread i) (qat (K i) d x) (qat (K' i) d x)) ->
  forall (l : list nat) x, incl l (seq 0 D) -> length l <= D -> x < T ->
  near (shares t) (qsum (map (fun d => qat (X t) d x) l)) (qsum (map (fun d => qat (X' t) d x) l)).
Proof.
  intros HK l x Hl Ll Hx. pose proof (spread_e t) as Se. eapply near_le.
  - apply P_Stable.sum_within. intros d I. apply X_near; auto. apply Hl, in_seq in I. lia.
  - unfold shares. rewrite Qcmult_assoc, <- P_Ksat_Range.qn_mul. apply Qcmult_le_compat_r; [|qlra]. apply qn_le. nia.
Qed.

Definition both (t : nat) : Prop :=
  (forall d x, d < D -> x < T -> near (spread t) (qat (K t) d x) (qat (K' t) d x)) /\
  (forall p x, p < P -> x < T -> near (spread t) (qat (EO t) p x) (qat (EO' t) p x)).

(** one iteration *)
Section Step.
Variable t : nat.
Hypothesis HK : forall i, i <= t -> both i.
Let V : Qc := (e + spread t + shares t)%Qc.
Let KK : forall i, i <= t -> forall d x, d < D -> x < T -> near (spread i) (qat (K i) d x) (qat (K' i) d x) := fun i Hi => proj1 (HK i Hi).
Lemma TO_near x : x < T -> near V (nth x (TO t) 0%Qc) (nth x (TO' t) 0%Qc).
Proof.
  intros Hx. destruct (H1 t) as (_ & _ & A & _). destruct (H2 t) as (_ & _ & A' & _). rewrite A, A' by auto.
  eapply near_le; [apply near_plus; [apply Hr; auto|apply Xs_near; auto; [apply incl_refl|rewrite seq_length; lia]]|].
  unfold V. pose proof (spread_e t). qlra.
Qed.
Lemma CE_near p x : p < P -> x < T -> near V (qat (CE t) p x) (qat (CE' t) p x).
Proof.
  intros Hp Hx. destruct (H1 t) as (_ & _ & _ & A & _). destruct (H2 t) as (_ & _ & _ & A' & _).
  destruct (A p x Hp Hx) as (M & _). destruct (A' p x Hp Hx) as (M' & _). unfold col in M, M'.
  apply (team_project_facts _ _ _ _ p) in M; [|apply seq_NoDup|apply nth_error_seq_lt; lia].
  apply (team_project_facts _ _ _ _ p) in M'; [|apply seq_NoDup|apply nth_error_seq_lt; lia].
  destruct M as (Ma & Mb & Mc), M' as (Ma' & Mb' & Mc').
  apply (max_near (fun j => In j (seq 0 P) /\ j <> p) (fun j => qat (EO t) j x) (fun j => qat (EO' t) j x) (nth x (TO t) 0%Qc) (nth x (TO' t) 0%Qc)).
  - apply TO_near, Hx.
  - intros j (I & _). apply in_seq in I. eapply near_le; [apply (proj2 (HK t (le_n t))); auto; lia|]. unfold V. pose proof (shares_0 t). qlra.
  - repeat split; auto; [intros j (I & N); apply Mb; auto|]. destruct Mc as [|(j & I & N & Ej)]; [now left|right]. exists j. auto.
  - repeat split; auto; [intros j (I & N); apply Mb'; auto|]. destruct Mc' as [|(j & I & N & Ej)]; [now left|right]. exists j. auto.
Qed.
Lemma EP_near p x : p < P -> x < T -> near (V + e)%Qc (qat (EP t) p x) (qat (EP' t) p x).
Proof.
  intros Hp Hx. destruct (H1 t) as (_ & _ & _ & A & _). destruct (H2 t) as (_ & _ & _ & A' & _).
  destruct (A p x Hp Hx) as (_ & -> & _). destruct (A' p x Hp Hx) as (_ & -> & _). apply near_plus; [apply CE_near; auto|apply HR; auto].
Qed.
Lemma PE_near p x : p < P -> x < T -> near (V + e)%Qc (qat (PE t) p x) (qat (PE' t) p x).
Proof.
  intros Hp Hx. destruct (H1 t) as (_ & _ & _ & A & _). destruct (H2 t) as (_ & _ & _ & A' & _).
  destruct (A p x Hp Hx) as (_ & _ & M & _). destruct (A' p x Hp Hx) as (_ & _ & M' & _).
  assert (Lg : length (nth p (EP t) []) = T) by (apply (shape_nth P T); auto).
  assert (Lg' : length (nth p (EP' t) []) = T) by (apply (shape_nth P T); auto).
  rewrite <- (map_nth_seq (nth p (EP t) []) 0%Qc), Lg in M. rewrite <- (map_nth_seq (nth p (EP' t) []) 0%Qc), Lg' in M'.
  apply (project_facts _ _ _ x) in M; [|apply seq_NoDup|apply nth_error_seq_lt; lia].
  apply (project_facts _ _ _ x) in M'; [|apply seq_NoDup|apply nth_error_seq_lt; lia].
  destruct M as (Ma & Mb & Mc), M' as (Ma' & Mb' & Mc').
  apply (max_near (fun j => In j (seq 0 T) /\ j <> x) (fun j => nth j (nth p (EP t) []) 0%Qc) (fun j => nth j (nth p (EP' t) []) 0%Qc) 0%Qc 0%Qc).
  - apply near_refl. unfold V. pose proof (shares_0 t). pose proof (spread_e t). qlra.
  - intros j (I & _). apply in_seq in I. apply EP_near; auto; lia.
  - repeat split; auto; [intros j (I & N); apply Mb; auto|]. destruct Mc as [|(j & I & N & Ej)]; [now left|right]. exists j. auto.
  - repeat split; auto; [intros j (I & N); apply Mb'; auto|]. destruct Mc' as [|(j & I & N & Ej)]; [now left|right]. exists j. auto.
Qed.
Lemma EO_near p x : p < P -> x < T -> near (V + e + e)%Qc (qat (EO (t + 1)) p x) (qat (EO' (t + 1)) p x).
Proof.
  intros Hp Hx. destruct (H1 t) as (_ & _ & _ & A & _). destruct (H2 t) as (_ & _ & _ & A' & _).
  destruct (A p x Hp Hx) as (_ & _ & _ & ->). destruct (A' p x Hp Hx) as (_ & _ & _ & ->). apply near_plus; [apply PE_near; auto|apply HR; auto].
Qed.
Lemma OT_near x : x < T -> near (V + e + e)%Qc (nth x (OT t) 0%Qc) (nth x (OT' t) 0%Qc).
Proof.
  intros Hx.
  destruct (OT_facts T D P W R reward caps flag alpha Hcaps K EO Dm X TO CE EP PE OT H1 t x Hx) as (A & B & C).
  destruct (OT_facts T D P W R' reward' caps flag alpha Hcaps K' EO' Dm' X' TO' CE' EP' PE' OT' H2 t x Hx) as (A' & B' & C').
  pose proof (shares_0 t). pose proof (spread_e t). split.
  - destruct C as [->|(p & Hp & ->)]; [unfold V; qlra|]. pose proof (EO_near p x Hp Hx) as N. unfold near in N. specialize (B' p Hp). qlra.
  - destruct C' as [->|(p & Hp & ->)]; [unfold V; qlra|]. pose proof (EO_near p x Hp Hx) as N. unfold near in N. specialize (B p Hp). qlra.
Qed.
Lemma next : both (t + 1).
Proof.
  pose proof (shares_0 t). pose proof (spread_e t). split.
  - intros d x Hd Hx. destruct (H1 t) as (_ & _ & _ & _ & _ & A). destruct (H2 t) as (_ & _ & _ & _ & _ & A'). rewrite A, A' by auto.
    destruct (takes_part W d x).
    + eapply near_le; [apply near_plus; [apply near_plus; [apply Hr; auto|apply OT_near; auto]|]; apply Xs_near; auto|].
      * intros j I. apply filter_In in I as (I & _). unfold others in I. apply filter_In in I as (I & _). exact I.
      * apply others_le.
      * rewrite spread_next. unfold V. qlra.
    + apply near_refl. pose proof (spread_e (t + 1)). qlra.
  - intros p x Hp Hx. eapply near_le; [apply EO_near; auto|]. rewrite spread_next. unfold V. qlra.
Qed.
(** what the run returns *)
Lemma team_near x : x < T -> near (spread (t + 1))
  (nth x (OT t) 0 + qsum (map (fun d => qat (X t) d x) (seq 0 D)) + nth x reward 0)%Qc
  (nth x (OT' t) 0 + qsum (map (fun d => qat (X' t) d x) (seq 0 D)) + nth x reward' 0)%Qc /\
  near (spread (t + 1)) (nth x (OT t) 0 + qsum (map (fun d => qat (X t) d x) (seq 0 D)))%Qc
                        (nth x (OT' t) 0 + qsum (map (fun d => qat (X' t) d x) (seq 0 D)))%Qc.
Proof.
  intros Hx. pose proof (shares_0 t). pose proof (spread_e t).
  assert (A : near (V + e + e + shares t)%Qc (nth x (OT t) 0 + qsum (map (fun d => qat (X t) d x) (seq 0 D)))%Qc
                        (nth x (OT' t) 0 + qsum (map (fun d => qat (X' t) d x) (seq 0 D)))%Qc).
  { apply near_plus; [apply OT_near; auto|apply Xs_near; auto; [apply incl_refl|rewrite seq_length; lia]]. }
  split; (eapply near_le; [first [exact A|apply near_plus; [exact A|apply Hr; auto]]|]); rewrite spread_next; unfold V; qlra.
Qed.
Lemma pair_near p x : p < P -> x < T -> near (spread (t + 1))
  (qat (CE t) p x + qat (PE t) p x + qat R p x)%Qc (qat (CE' t) p x + qat (PE' t) p x + qat R' p x)%Qc.
Proof.
  intros Hp Hx. pose proof (shares_0 t). pose proof (spread_e t).
  eapply near_le; [apply near_plus; [apply near_plus; [apply CE_near; auto|apply PE_near; auto]|apply HR; auto]|]. rewrite spread_next. unfold V. qlra.
Qed.
End Step.

Lemma both_all : forall t, both t.
Proof.
  induction t as [t IH] using lt_wf_ind. destruct t as [|t].
  - split.
    + intros d x Hd Hx. rewrite HK0, HK0' by auto. destruct (takes_part W d x); [eapply near_le; [apply Hr; auto|apply spread_e]|apply near_refl; pose proof (spread_e 0); qlra].
    + intros p x _ _. rewrite HEO0, HEO0'. apply near_refl. pose proof (spread_e 0). qlra.
  - replace (S t) with (t + 1) by lia. apply next. intros i Hi. apply IH. lia.
Qed.
End Two.
