(** * KC-MWM with counting departments: the messages settle on the best selection. *)
From Coq Require Import Permutation.
From Verif Require Import Num NumFacts Arr ArrFacts Spec SpecRun SpecGraph SpecCover SpecSelection MinSum MinSumFacts.
From Verif Require Import P_Ksat P_PyRef_Ksat P_Assign P_Tsp_Assign P_Ksat_Limit P_Kc_Dual P_Kc_Messages.
Local Open Scope nat_scope.

Lemma qsum_zero {A} (g : A -> Qc) l : (forall x, In x l -> g x = 0%Qc) -> qsum (map g l) = 0%Qc.
Proof.
  induction l as [|x l IH]; intros H; [reflexivity|]. cbn [map]. rewrite qsum_cons, IH, H; [ring|now left|].
  intros y I. apply H. now right.
Qed.
Lemma qsum_one (g : nat -> Qc) l x : NoDup l -> In x l -> (forall y, In y l -> y <> x -> g y = 0%Qc) -> qsum (map g l) = g x.
Proof.
  intros N. induction N as [|y l Ny N IH]; [intros []|]. cbn [map]. rewrite qsum_cons. intros [->|I] H.
  - rewrite qsum_zero; [ring|]. intros y I. apply H; [now right|]. intros ->. contradiction.
  - rewrite IH, (H y); auto; [ring|now left|intros ->; contradiction|]. intros z Iz. apply H. now right.
Qed.
Lemma qsum_lin {A} (f g : A -> Qc) x y l : qsum (map (fun i => x * f i + y * g i)%Qc l) = (x * qsum (map f l) + y * qsum (map g l))%Qc.
Proof.
  induction l as [|i l IH]; [cbn; ring|]. cbn [map]. rewrite !qsum_cons, IH. ring.
Qed.
Lemma qsum_ge0 {A} (g : A -> Qc) l : (forall x, In x l -> (0 <= g x)%Qc) -> (0 <= qsum (map g l))%Qc.
Proof.
  induction l as [|x l IH]; intros H; [discriminate|]. cbn [map]. rewrite qsum_cons.
  pose proof (H x (or_introl eq_refl)). assert (0 <= qsum (map g l))%Qc by (apply IH; intros; apply H; now right). qlra.
Qed.
Lemma mix_le be x y m n : (0 <= be -> be < 1 -> x <= m -> y <= n -> be * x + (1 - be) * y <= be * m + (1 - be) * n)%Qc.
Proof.
  intros H0 H1 A B. pose proof (Qcmult_le_compat_r _ _ be A H0) as X.
  pose proof (Qcmult_le_compat_r _ _ (1 - be)%Qc B ltac:(qlra)) as Y.
  rewrite (Qcmult_comm be x), (Qcmult_comm be m), (Qcmult_comm _ y), (Qcmult_comm _ n). qlra.
Qed.

Section Best.
Variables (T D P : nat) (W : list (list nat)) (R : list (list Qc)) (reward : list Qc) (caps : list nat) (flag : bool) (alpha : Qc).
Variables (F : list (nat * nat)) (delta : Qc).
Hypothesis HWs : shape D T W.
Hypothesis Hcaps : length caps = D.
Hypothesis Hrw : forall x, x < T -> (- zq 1000000 <= nth x reward 0)%Qc.
Hypothesis Ha0 : (0 <= alpha)%Qc.
Hypothesis Ha1 : (alpha < 1)%Qc.
Hypothesis HF : selection T D P W caps F.
Hypothesis Hcnt : counting T D W caps.
Hypothesis Hd : (0 < delta)%Qc.
Variables (K EO Dm X : nat -> list (list Qc)) (TO : nat -> list Qc) (CE EP PE : nat -> list (list Qc)) (OT : nat -> list Qc).
Hypothesis HEO0 : forall p x, qat (EO 0) p x = 0%Qc.
Hypothesis HK0 : forall d x, d < D -> x < T -> qat (K 0) d x = if takes_part W d x then nth x reward 0%Qc else 0%Qc.
Hypothesis HEP : forall t, shape P T (EP t).
Hypothesis Hrun : forall t,
         (forall d ws cap, nth_error W d = Some ws -> nth_error caps d = Some cap ->
            (forall i x, nth_error (participants T ws) i = Some x ->
               minsum_message (within (map (fun x => nth x ws 0) (participants T ws)) cap)
                 (map (fun x => qat (K t) d x) (participants T ws)) i (Fin (qat (Dm t) d x))) /\
            (forall x, x < T -> takes_part W d x = false -> qat (Dm t) d x = 0%Qc)) /\
         (forall d x, d < D -> x < T ->
            qat (X t) d x = filtered flag alpha (fun i => qat (Dm i) d x) t) /\
         (forall x, x < T ->
            nth x (TO t) 0%Qc = (nth x reward 0 + qsum (map (fun d => qat (X t) d x) (seq 0 D)))%Qc) /\
         (forall p x, p < P -> x < T ->
            minsum_message coupled (nth x (TO t) 0%Qc :: col (EO t) P x) (S p) (Fin (qat (CE t) p x)) /\
            qat (EP t) p x = (qat (CE t) p x + qat R p x)%Qc /\
            minsum_message at_most_one (nth p (EP t) []) x (Fin (qat (PE t) p x)) /\
            qat (EO (t + 1)) p x = (qat (PE t) p x + qat R p x)%Qc) /\
         (forall x, x < T -> exists v,
            minsum_message coupled (nth x (TO t) 0%Qc :: col (EO (t + 1)) P x) 0 v /\
            Fin (nth x (OT t) 0%Qc) = nmin (zn 1000000) v) /\
         (forall d x, d < D -> x < T -> qat (K (t + 1)) d x =
            if takes_part W d x then
              (nth x reward 0 + nth x (OT t) 0 +
               qsum (map (fun d' => qat (X t) d' x)
                      (filter (fun d' => takes_part W d' x) (others d (seq 0 D)))))%Qc
            else 0%Qc).
(** prices *)
Variables (a u b : nat -> Qc).
Let w (p x : nat) : Qc := (nth x reward 0 + qat R p x)%Qc.
Let chosen := chosen F.
Let full := full T W caps F.
Hypothesis Pin : forall p x, In (p, x) F -> w p x = (a x + u x + b p)%Qc.
Hypothesis Pout : forall p x, p < P -> x < T -> ~ In (p, x) F -> (a x + u x + b p + delta <= w p x)%Qc.
Hypothesis Pu1 : forall x, chosen x = true -> (u x <= - delta)%Qc.
Hypothesis Pu0 : forall x, chosen x = false -> u x = 0%Qc.
Hypothesis Pb1 : forall p x, In (p, x) F -> (b p <= - delta)%Qc.
Hypothesis Pb0 : forall p, team_of F p = None -> b p = 0%Qc.
Hypothesis Pa : forall x, (a x <= 0)%Qc.
Hypothesis Psame : forall d x y, d < D -> full d = true -> share W d x <> 0 -> share W d y <> 0 -> a x = a y.
Hypothesis Pfree : forall x, (forall d, d < D -> full d = true -> share W d x = 0) -> a x = 0%Qc.

Let be := effective flag alpha.
Lemma be0 : (0 <= be)%Qc. Proof. apply effective_range; auto. Qed.
Lemma be1 : (be < 1)%Qc. Proof. apply effective_range; auto. Qed.

Lemma Hneed d x : share W d x <> 0 -> x < T.
Proof.
  intros N. unfold share in N. destruct (Nat.lt_ge_cases x T) as [|L]; [auto|]. exfalso. apply N. apply nth_overflow.
  destruct (Nat.lt_ge_cases d (length W)) as [Ld|Ld].
  - destruct HWs as (_ & Fa). rewrite Forall_forall in Fa. rewrite (Fa (nth d W [])); [lia|]. apply nth_In, Ld.
  - rewrite (nth_overflow W) by lia. cbn. lia.
Qed.
Lemma part_share d x : takes_part W d x = true <-> share W d x <> 0.
Proof. unfold takes_part, share. rewrite negb_true_iff, Nat.eqb_neq. reflexivity. Qed.

(** ** Departments *)
Section Round.
Variable k : nat.
Variables (d : nat).
Hypothesis Hdd : d < D.
Let ws := nth d W [].
Let l := participants T ws.
Let cap := nth d caps 0.
Lemma l_in x : In x l <-> share W d x <> 0.
Proof.
  unfold l, participants. rewrite filter_In, in_seq, negb_true_iff, Nat.eqb_neq. split; [unfold share; tauto|].
  intros N. pose proof (Hneed d x N). unfold share in N. split; [lia|exact N].
Qed.
Lemma l_nodup : NoDup l.
Proof. apply NoDup_filter, seq_NoDup. Qed.
Lemma round_message x : share W d x <> 0 -> exists i, nth_error l i = Some x /\
  minsum_message (within (map (share W d) l) cap) (map (fun x => qat (K k) d x) l) i (Fin (qat (Dm k) d x)).
Proof.
  intros N. apply l_in, In_nth_error in N as (i & E). exists i. split; [exact E|].
  destruct (Hrun k) as (A & _). destruct (A d ws cap) as (A1 & _).
  - apply nth_error_nth'. destruct HWs. lia.
  - apply nth_error_nth'. lia.
  - apply A1, E.
Qed.
Lemma round_out x : x < T -> share W d x = 0 -> qat (Dm k) d x = 0%Qc.
Proof.
  intros Hx N. destruct (Hrun k) as (A & _). destruct (A d ws cap) as (_ & A2).
  - apply nth_error_nth'. destruct HWs. lia.
  - apply nth_error_nth'. lia.
  - apply A2; [exact Hx|]. unfold takes_part. unfold share in N. rewrite N. reflexivity.
Qed.
Lemma sum_participants : list_sum (map (share W d) l) = list_sum (map (share W d) (seq 0 T)).
Proof.
  rewrite (sum_filter (share W d) (fun x => negb (share W d x =? 0)) (seq 0 T)). fold l.
  change (filter (fun x => negb (share W d x =? 0)) (seq 0 T)) with l.
  assert (Z : forall m, list_sum (map (share W d) (filter (fun x => negb (negb (share W d x =? 0))) m)) = 0); [|rewrite Z; lia].
  induction m as [|y m IH]; [reflexivity|]. cbn [filter]. destruct (share W d y =? 0) eqn:E; cbn [negb]; [|exact IH].
  cbn [map]. rewrite sum_cons, IH. apply Nat.eqb_eq in E. lia.
Qed.
Lemma load_chosen : load (share W d) l chosen = spent W F d.
Proof.
  assert (E : load (share W d) l chosen = list_sum (map (share W d) (filter chosen l))).
  { unfold load. induction l as [|y m IH]; [reflexivity|]. cbn [map filter]. rewrite sum_cons, IH. destruct (chosen y); reflexivity. }
  rewrite E. unfold spent. rewrite <- (map_map snd (share W d)).
  apply Nat.le_antisymm.
  - apply sum_incl; [apply NoDup_filter, l_nodup|]. intros x I. apply filter_In in I as (_ & C).
    apply chosen_in in C as (p & I). apply in_map_iff. exists (p, x). auto.
  - rewrite (sum_filter (share W d) (fun x => share W d x =? 0) (map snd F)).
    assert (Z : forall m, list_sum (map (share W d) (filter (fun x => share W d x =? 0) m)) = 0).
    { induction m as [|y m IH]; [reflexivity|]. cbn [filter]. destruct (share W d y =? 0) eqn:Q; [|exact IH].
      cbn [map]. rewrite sum_cons, IH. apply Nat.eqb_eq in Q. lia. }
    rewrite Z. cbn [Nat.add]. apply sum_incl; [apply NoDup_filter; apply HF|].
    intros x I. apply filter_In in I as (I & Q). apply negb_true_iff, Nat.eqb_neq in Q. apply in_map_iff in I as ((p, x') & <- & I).
    apply filter_In. split; [apply l_in, Q|]. apply chosen_in. eauto.
Qed.
Lemma round_nonneg x : x < T -> (0 <= qat (Dm k) d x)%Qc.
Proof.
  intros Hx. destruct (Nat.eq_dec (share W d x) 0) as [Z|N]; [rewrite round_out by auto; discriminate|].
  destruct (round_message x N) as (i & E & M). eapply department_nonneg; eauto using l_nodup.
Qed.
Lemma round_slack x : x < T -> ~ scarce T W caps d -> qat (Dm k) d x = 0%Qc.
Proof.
  intros Hx Ns. destruct (Nat.eq_dec (share W d x) 0) as [Z|N]; [apply round_out; auto|].
  destruct (round_message x N) as (i & E & M). eapply department_slack; eauto using l_nodup.
  rewrite sum_participants. unfold scarce in Ns. fold cap in Ns. lia.
Qed.
Lemma round_lower x : full d = true -> share W d x <> 0 -> chosen x = false ->
  exists y, share W d y <> 0 /\ chosen y = true /\ (- qat (K k) d y <= qat (Dm k) d x)%Qc.
Proof.
  intros Fu N C. destruct (round_message x N) as (i & E & M).
  destruct (department_lower l (fun x => qat (K k) d x) (share W d) cap i x _ l_nodup E M (share W d x) chosen) as (y & I & Cy & L); auto.
  - intros y I. apply l_in in I. apply (proj1 Hcnt d); auto. eapply full_scarce; eauto.
  - rewrite load_chosen. eapply full_no_room; eauto.
  - exists y. split; [apply l_in, I|]. auto.
Qed.
Lemma round_upper x : scarce T W caps d -> share W d x <> 0 -> chosen x = true ->
  (qat (Dm k) d x <= 0)%Qc \/ exists y, share W d y <> 0 /\ chosen y = false /\ (qat (Dm k) d x <= - qat (K k) d y)%Qc.
Proof.
  intros Sc N C. destruct (round_message x N) as (i & E & M).
  destruct (department_upper l (fun x => qat (K k) d x) (share W d) cap i x _ l_nodup E M (share W d x) chosen) as [Le|(y & I & Cy & L)]; auto.
  - intros y I. apply l_in in I. apply (proj1 Hcnt d); auto.
  - rewrite load_chosen. apply HF, Hdd.
  - right. exists y. split; [apply l_in, I|]. auto.
Qed.
End Round.

(** ** Places: what the departments ask of a team *)
Definition asked (k x : nat) : Qc := qsum (map (fun d => qat (Dm k) d x) (seq 0 D)).
Definition place (k x : nat) : Qc := qsum (map (fun d => qat (X k) d x) (seq 0 D)).
Definition before (k x : nat) : Qc := match k with 0 => 0%Qc | S k => place k x end.
Lemma place_step k x : x < T -> place k x = (be * before k x + (1 - be) * asked k x)%Qc.
Proof.
  intros Hx. unfold place, asked. rewrite (map_ext_in _ (fun d => be * match k with 0 => 0%Qc | S k => qat (X k) d x end + (1 - be) * qat (Dm k) d x)%Qc).
  - rewrite (qsum_lin (fun d => match k with 0 => 0%Qc | S k => qat (X k) d x end)). f_equal. f_equal.
    destruct k; [|reflexivity]. apply qsum_zero. reflexivity.
  - intros d I. apply in_seq in I. destruct (Hrun k) as (_ & A & _). rewrite A by lia. destruct k as [|k].
    + rewrite filtered_0. unfold be. ring.
    + rewrite filtered_S. destruct (Hrun k) as (_ & B & _). rewrite <- B by lia. reflexivity.
Qed.
Lemma asked_nonneg k x : x < T -> (0 <= asked k x)%Qc.
Proof. intros Hx. apply qsum_ge0. intros d I. apply in_seq in I. apply round_nonneg; [lia|exact Hx]. Qed.
Lemma place_nonneg k x : x < T -> (0 <= place k x)%Qc.
Proof.
  intros Hx. assert (A : forall k, (0 <= before k x)%Qc -> (0 <= place k x)%Qc).
  { intros j H. rewrite place_step by auto. pose proof (mix_le be 0 0 (before j x) (asked j x) be0 be1 H (asked_nonneg j x Hx)) as Y.
    replace (be * 0 + (1 - be) * 0)%Qc with 0%Qc in Y by ring. exact Y. }
  induction k as [|k IH]; apply A; [discriminate|exact IH].
Qed.
Lemma X_slack k d x : d < D -> x < T -> (~ scarce T W caps d \/ share W d x = 0) -> qat (X k) d x = 0%Qc.
Proof.
  intros Hdd Hx H. assert (Z : forall j, qat (Dm j) d x = 0%Qc) by (intros j; destruct H; [apply round_slack|apply round_out]; auto).
  assert (A : filtered flag alpha (fun i => qat (Dm i) d x) k = 0%Qc).
  { induction k as [|k IH]; [rewrite filtered_0|rewrite filtered_S, IH]; rewrite Z; ring. }
  destruct (Hrun k) as (_ & B & _). rewrite B by auto. exact A.
Qed.
Definition place_of (x d : nat) : Prop := d < D /\ scarce T W caps d /\ share W d x <> 0.
Lemma place_cases x : (exists d, place_of x d) \/ (forall d, ~ place_of x d).
Proof.
  destruct (find (fun d => (nth d caps 0 <? list_sum (map (share W d) (seq 0 T))) && negb (share W d x =? 0)) (seq 0 D)) as [d|] eqn:E.
  - left. exists d. apply find_some in E as (I & E). apply andb_prop in E as (E1 & E2). apply in_seq in I. apply Nat.ltb_lt in E1.
    apply negb_true_iff, Nat.eqb_neq in E2. split; [lia|]. auto.
  - right. intros d (H1 & H2 & H3). assert (I : In d (seq 0 D)) by (apply in_seq; lia). apply (find_none _ _ E) in I.
    unfold scarce in H2. apply Nat.ltb_lt in H2. apply Nat.eqb_neq in H3. rewrite H2, H3 in I. discriminate.
Qed.
Lemma not_place k x d d' : x < T -> place_of x d -> d' < D -> d' <> d -> qat (Dm k) d' x = 0%Qc /\ qat (X k) d' x = 0%Qc.
Proof.
  intros Hx (H1 & H2 & H3) Hd' N. assert (A : ~ scarce T W caps d' \/ share W d' x = 0).
  { destruct (Nat.eq_dec (share W d' x) 0) as [Z|Z]; [now right|left]. intros Sc. apply N. apply (proj2 Hcnt d' d x); auto. }
  split; [|apply X_slack; auto]. destruct A; [apply round_slack|apply round_out]; auto.
Qed.
Lemma asked_place k x d : x < T -> place_of x d -> asked k x = qat (Dm k) d x.
Proof.
  intros Hx Hp. apply (qsum_one (fun d => qat (Dm k) d x)); [apply seq_NoDup|apply in_seq; destruct Hp; lia|].
  intros d' I N. apply in_seq in I. apply (not_place k x d d'); auto. lia.
Qed.
Lemma asked_none k x : x < T -> (forall d, ~ place_of x d) -> asked k x = 0%Qc.
Proof.
  intros Hx H. apply qsum_zero. intros d I. apply in_seq in I. destruct (Nat.eq_dec (share W d x) 0) as [Z|Z]; [apply round_out; auto; lia|].
  apply round_slack; [lia|exact Hx|]. intros Sc. apply (H d). split; [lia|auto].
Qed.
Lemma K_next k x d : x < T -> place_of x d -> qat (K (k + 1)) d x = (nth x reward 0 + nth x (OT k) 0)%Qc.
Proof.
  intros Hx Hp. pose proof Hp as (H1 & H2 & H3). destruct (Hrun k) as (_ & _ & _ & _ & _ & A). rewrite A by auto.
  rewrite (proj2 (part_share d x) H3). rewrite (qsum_zero (fun d' => qat (X k) d' x)); [ring|].
  intros d' I. apply filter_In in I as (I & _). apply filter_In in I as (I & N). apply in_seq in I.
  apply negb_true_iff, Nat.eqb_neq in N. apply (not_place k x d d'); auto. lia.
Qed.
Lemma a_none x : (forall d, ~ place_of x d) -> a x = 0%Qc.
Proof.
  intros H. apply Pfree. intros d Hdd Fu. destruct (Nat.eq_dec (share W d x) 0) as [Z|Z]; [exact Z|]. exfalso.
  apply (H d). split; [exact Hdd|]. split; [eapply full_scarce; eauto|exact Z].
Qed.
Lemma a_open x d : place_of x d -> full d = false -> a x = 0%Qc.
Proof.
  intros (H1 & H2 & H3) Fu. apply Pfree. intros d' Hd' Fu'. destruct (Nat.eq_dec (share W d' x) 0) as [Z|Z]; [exact Z|]. exfalso.
  assert (d' = d) by (apply (proj2 Hcnt d' d x); auto; eapply full_scarce; eauto). congruence.
Qed.

(** ** The invariant *)
Definition over (Z : Qc) : Qc := if qltb delta Z then (Z - delta)%Qc else 0%Qc.
Definition next (Z : Qc) : Qc := (be * Z + (1 - be) * over Z)%Qc.
Record inv (k : nat) (Z : Qc) : Prop := {
  i_b1 : forall p x, p < P -> x < T -> ~ In (p, x) F -> (- Z <= qat (EO k) p x - qat R p x + b p)%Qc;
  i_b2 : forall p x, In (p, x) F -> (qat (EO k) p x - qat R p x + b p <= Z - delta)%Qc;
  i_k1 : forall d x, place_of x d -> chosen x = false -> (delta - Z <= qat (K k) d x - a x)%Qc \/ (0 <= qat (K k) d x - a x)%Qc;
  i_k2 : forall d x, place_of x d -> chosen x = true -> (qat (K k) d x - a x <= Z - delta)%Qc;
  i_x1 : forall x, x < T -> chosen x = false -> (- Z <= before k x + a x)%Qc;
  i_x2 : forall x, x < T -> chosen x = true -> (before k x + a x <= Z)%Qc }.
Lemma inv_mono k Z Z' : (Z <= Z')%Qc -> inv k Z -> inv k Z'.
Proof.
  intros L [A B C E G H]. constructor.
  - intros p x Hp Hx N. specialize (A p x Hp Hx N). qlra.
  - intros p x I. specialize (B p x I). qlra.
  - intros d x Hp N. destruct (C d x Hp N) as [Y|Y]; [left; qlra|right; exact Y].
  - intros d x Hp N. specialize (E d x Hp N). qlra.
  - intros x Hx N. specialize (G x Hx N). qlra.
  - intros x Hx N. specialize (H x Hx N). qlra.
Qed.
Lemma over_facts Z : (0 <= Z)%Qc -> (0 <= over Z /\ Z - delta <= over Z /\ over Z <= Z)%Qc.
Proof. intros H. unfold over. destruct (qltb_spec delta Z); repeat split; qlra. Qed.
Lemma next_facts Z : (0 <= Z)%Qc -> (over Z <= next Z /\ next Z <= Z)%Qc.
Proof.
  intros H. destruct (over_facts Z H) as (A & B & C). unfold next.
  pose proof (mix_le be (over Z) (over Z) Z (over Z) be0 be1 C (Qcle_refl _)) as Y.
  pose proof (mix_le be Z (over Z) Z Z be0 be1 (Qcle_refl _) C) as Y'.
  replace (be * over Z + (1 - be) * over Z)%Qc with (over Z) in Y by ring.
  replace (be * Z + (1 - be) * Z)%Qc with Z in Y' by ring. split; qlra.
Qed.
Lemma chosen_T x : chosen x = true -> x < T.
Proof. intros C. apply chosen_in in C as (p & I). apply HF in I. tauto. Qed.

Section Step.
Variables (k : nat) (Z : Qc).
Hypothesis HZ : (0 <= Z)%Qc.
Hypothesis HI : inv k Z.
Lemma asked_1 x : x < T -> chosen x = false -> (- over Z <= asked k x + a x)%Qc.
Proof.
  intros Hx C. destruct (over_facts Z HZ) as (O1 & O2 & O3).
  destruct (place_cases x) as [(d & Hp)|Np]; [|rewrite asked_none, a_none by auto; qlra].
  destruct (full d) eqn:Fu.
  - rewrite (asked_place k x d Hx Hp). destruct Hp as (H1 & H2 & H3).
    destruct (round_lower k d H1 x Fu H3 C) as (y & Sy & Cy & L).
    pose proof (i_k2 _ _ HI d y) as Y. assert (Hy : place_of y d) by (split; auto). specialize (Y Hy Cy).
    rewrite (Psame d x y) by auto. qlra.
  - rewrite (a_open x d) by auto. pose proof (asked_nonneg k x Hx). qlra.
Qed.
Lemma asked_2 x : x < T -> chosen x = true -> (asked k x + a x <= over Z)%Qc.
Proof.
  intros Hx C. destruct (over_facts Z HZ) as (O1 & O2 & O3).
  destruct (place_cases x) as [(d & Hp)|Np]; [|rewrite asked_none, a_none by auto; qlra].
  rewrite (asked_place k x d Hx Hp). pose proof Hp as (H1 & H2 & H3). pose proof (Pa x).
  destruct (round_upper k d H1 x H2 H3 C) as [L|(y & Sy & Cy & L)]; [qlra|].
  assert (Hy : place_of y d) by (split; auto).
  assert (E : a x = a y).
  { destruct (full d) eqn:Fu; [apply (Psame d); auto|]. now rewrite (a_open x d), (a_open y d). }
  destruct (i_k1 _ _ HI d y Hy Cy) as [Y|Y]; rewrite E; qlra.
Qed.
Lemma place_1 x : x < T -> chosen x = false -> (- next Z <= place k x + a x)%Qc.
Proof.
  intros Hx C. rewrite place_step by auto. unfold next.
  pose proof (mix_le be (- (before k x + a x)) (- (asked k x + a x)) Z (over Z) be0 be1) as Y.
  pose proof (asked_1 x Hx C). pose proof (i_x1 _ _ HI x Hx C).
  assert (Y' : (be * - (before k x + a x) + (1 - be) * - (asked k x + a x) <= be * Z + (1 - be) * over Z)%Qc) by (apply Y; qlra).
  replace (be * - (before k x + a x) + (1 - be) * - (asked k x + a x))%Qc
    with (- (be * before k x + (1 - be) * asked k x + a x))%Qc in Y' by ring. qlra.
Qed.
Lemma place_2 x : x < T -> chosen x = true -> (place k x + a x <= next Z)%Qc.
Proof.
  intros Hx C. rewrite place_step by auto. unfold next.
  pose proof (mix_le be (before k x + a x) (asked k x + a x) Z (over Z) be0 be1 (i_x2 _ _ HI x Hx C) (asked_2 x Hx C)) as Y'.
  replace (be * (before k x + a x) + (1 - be) * (asked k x + a x))%Qc
    with (be * before k x + (1 - be) * asked k x + a x)%Qc in Y' by ring. exact Y'.
Qed.
Lemma TO_eq x : x < T -> nth x (TO k) 0%Qc = (nth x reward 0 + place k x)%Qc.
Proof. intros Hx. destruct (Hrun k) as (_ & _ & A & _). apply A, Hx. Qed.
Lemma CE_facts p x : p < P -> x < T ->
  (nth x reward 0 + place k x <= qat (CE k) p x)%Qc /\
  (forall p', p' < P -> p' <> p -> (- qat (EO k) p' x <= qat (CE k) p x)%Qc) /\
  (qat (CE k) p x = (nth x reward 0 + place k x)%Qc \/ exists p', p' < P /\ p' <> p /\ qat (CE k) p x = (- qat (EO k) p' x)%Qc).
Proof.
  intros Hp Hx. destruct (Hrun k) as (_ & _ & _ & A & _). destruct (A p x Hp Hx) as (M & _). unfold col in M. rewrite TO_eq in M by auto.
  destruct (team_project_facts (fun p => qat (EO k) p x) (nth x reward 0 + place k x)%Qc (seq 0 P) p p (qat (CE k) p x) (seq_NoDup _ _)) as (B1 & B2 & B3); auto.
  - rewrite (nth_error_nth' _ 0) by (rewrite seq_length; exact Hp). now rewrite seq_nth.
  - split; [exact B1|]. split.
    + intros p' Hp' N. apply B2; auto. apply in_seq. lia.
    + destruct B3 as [->|(j & I & N & E)]; [now left|right]. exists j. apply in_seq in I. split; [lia|auto].
Qed.
Lemma PE_facts p x : p < P -> x < T ->
  (0 <= qat (PE k) p x)%Qc /\
  (forall x', x' < T -> x' <> x -> (- (qat (CE k) p x' + qat R p x') <= qat (PE k) p x)%Qc) /\
  (qat (PE k) p x = 0%Qc \/ exists x', x' < T /\ x' <> x /\ qat (PE k) p x = (- (qat (CE k) p x' + qat R p x'))%Qc).
Proof.
  intros Hp Hx. destruct (Hrun k) as (_ & _ & _ & A & _). destruct (A p x Hp Hx) as (_ & _ & M & _).
  assert (E : nth p (EP k) [] = map (fun x => (qat (CE k) p x + qat R p x)%Qc) (seq 0 T)).
  { destruct (HEP k) as (L & Fa). rewrite Forall_forall in Fa.
    assert (Lr : length (nth p (EP k) []) = T) by (apply Fa, nth_In; lia).
    apply (nth_ext _ _ 0%Qc 0%Qc); [now rewrite map_length, seq_length|]. intros n Hn. rewrite Lr in Hn.
    assert (G : nth n (map (fun x => (qat (CE k) p x + qat R p x)%Qc) (seq 0 T)) 0%Qc = (qat (CE k) p n + qat R p n)%Qc).
    { apply nth_error_nth. rewrite nth_error_map, (nth_error_nth' _ 0) by (rewrite seq_length; exact Hn). now rewrite seq_nth. }
    rewrite G. destruct (A p n Hp Hn) as (_ & Q & _). exact Q. }
  rewrite E in M.
  destruct (project_facts (fun x => (qat (CE k) p x + qat R p x)%Qc) (seq 0 T) x x (qat (PE k) p x) (seq_NoDup _ _)) as (B1 & B2 & B3); auto.
  - rewrite (nth_error_nth' _ 0) by (rewrite seq_length; exact Hx). now rewrite seq_nth.
  - split; [exact B1|]. split.
    + intros x' Hx' N. apply B2; auto. apply in_seq. lia.
    + destruct B3 as [->|(j & I & N & Q)]; [now left|right]. exists j. apply in_seq in I. split; [lia|auto].
Qed.
Lemma OT_facts x : x < T -> (forall p, p < P -> (nth x (OT k) 0 <= qat (EO (k + 1)) p x)%Qc) /\
  (nth x (OT k) 0%Qc = zq 1000000 \/ exists p, p < P /\ nth x (OT k) 0%Qc = qat (EO (k + 1)) p x).
Proof.
  intros Hx. destruct (Hrun k) as (_ & _ & _ & _ & A & _). destruct (A x Hx) as (v & M & E).
  destruct (team_facts _ _ _ _ M E) as (B1 & B2). unfold col in *. split.
  - intros p Hp. apply B1. apply (in_map (fun p => qat (EO (k + 1)) p x)). apply in_seq. lia.
  - destruct B2 as [->|I]; [now left|right]. apply in_map_iff in I as (p & <- & I). apply in_seq in I. exists p. split; [lia|reflexivity].
Qed.
Lemma partner_out p x p' : In (p, x) F -> p' <> p -> ~ In (p', x) F.
Proof.
  intros I N J. apply N. assert (E : (p', x) = (p, x)) by (apply (nodup_key snd F); auto; apply HF). congruence.
Qed.
Lemma partner_out' p x x' : In (p, x) F -> x' <> x -> ~ In (p, x') F.
Proof.
  intros I N J. apply N. assert (E : (p, x') = (p, x)) by (apply (nodup_key fst F); auto; apply HF). congruence.
Qed.
Lemma in_PT p x : In (p, x) F -> p < P /\ x < T.
Proof. apply HF. Qed.
Lemma is_chosen p x : In (p, x) F -> chosen x = true.
Proof. intros I. apply chosen_in. eauto. Qed.
(** team to project *)
Lemma gamma_2 p x : In (p, x) F -> (qat (CE k) p x - nth x reward 0 + a x + u x <= Z - delta)%Qc.
Proof.
  intros I. pose proof (in_PT _ _ I) as (Hp & Hx). pose proof (is_chosen _ _ I) as C. destruct (next_facts Z HZ) as (N1 & N2).
  destruct (CE_facts p x Hp Hx) as (_ & _ & [->|(p' & Hp' & N & ->)]).
  - pose proof (place_2 x Hx C). pose proof (Pu1 x C). qlra.
  - pose proof (i_b1 _ _ HI p' x Hp' Hx (partner_out p x p' I N)). pose proof (Pout p' x Hp' Hx (partner_out p x p' I N)) as Y. unfold w in Y. qlra.
Qed.
Lemma gamma_1 p x : p < P -> x < T -> ~ In (p, x) F -> (- next Z <= qat (CE k) p x - nth x reward 0 + a x + u x)%Qc.
Proof.
  intros Hp Hx N. destruct (CE_facts p x Hp Hx) as (L1 & L2 & _). destruct (next_facts Z HZ) as (N1 & N2). destruct (over_facts Z HZ) as (O1 & O2 & O3).
  destruct (chosen x) eqn:C.
  - pose proof C as C'. apply chosen_in in C' as (p0 & I). assert (Np : p0 <> p) by (intros ->; contradiction).
    specialize (L2 p0 (proj1 (in_PT _ _ I)) Np). pose proof (i_b2 _ _ HI p0 x I). pose proof (Pin p0 x I) as Y. unfold w in Y. qlra.
  - pose proof (place_1 x Hx C). rewrite (Pu0 x C). qlra.
Qed.
(** project to team *)
Lemma beta_1 p x : p < P -> x < T -> ~ In (p, x) F -> (- next Z <= qat (PE k) p x + b p)%Qc.
Proof.
  intros Hp Hx N. destruct (PE_facts p x Hp Hx) as (L1 & L2 & _). destruct (next_facts Z HZ) as (N1 & N2). destruct (over_facts Z HZ) as (O1 & O2 & O3).
  destruct (team_of F p) as [x0|] eqn:E.
  - assert (I : In (p, x0) F) by (eapply (team_of_in T D P W caps F HF); eauto). assert (Nx : x0 <> x) by (intros ->; contradiction).
    specialize (L2 x0 (proj2 (in_PT _ _ I)) Nx). pose proof (gamma_2 p x0 I). pose proof (Pin p x0 I) as Y. unfold w in Y. qlra.
  - rewrite (Pb0 p E). qlra.
Qed.
Lemma beta_2 p x : In (p, x) F -> (qat (PE k) p x + b p <= next Z - delta)%Qc.
Proof.
  intros I. pose proof (in_PT _ _ I) as (Hp & Hx). destruct (next_facts Z HZ) as (N1 & N2). destruct (over_facts Z HZ) as (O1 & O2 & O3).
  destruct (PE_facts p x Hp Hx) as (_ & _ & [->|(x' & Hx' & N & ->)]).
  - pose proof (Pb1 p x I). qlra.
  - pose proof (partner_out' p x x' I N) as No. pose proof (gamma_1 p x' Hp Hx' No). pose proof (Pout p x' Hp Hx' No) as Y. unfold w in Y. qlra.
Qed.
Lemma EO_next p x : p < P -> x < T -> qat (EO (k + 1)) p x = (qat (PE k) p x + qat R p x)%Qc.
Proof. intros Hp Hx. destruct (Hrun k) as (_ & _ & _ & A & _). apply A; auto. Qed.
(** team to departments *)
Lemma OT_2 x : chosen x = true -> (nth x reward 0 + nth x (OT k) 0 <= a x + u x + next Z - delta)%Qc.
Proof.
  intros C. apply chosen_in in C as (p & I). pose proof (in_PT _ _ I) as (Hp & Hx). destruct (OT_facts x Hx) as (L & _). specialize (L p Hp).
  rewrite EO_next in L by auto. pose proof (beta_2 p x I). pose proof (Pin p x I) as Y. unfold w in Y. qlra.
Qed.
Lemma OT_1 x : x < T -> chosen x = false ->
  (a x + delta - next Z <= nth x reward 0 + nth x (OT k) 0)%Qc \/ (0 <= nth x reward 0 + nth x (OT k) 0)%Qc.
Proof.
  intros Hx C. destruct (OT_facts x Hx) as (_ & [->|(p & Hp & ->)]).
  - right. pose proof (Hrw x Hx). qlra.
  - left. rewrite EO_next by auto. assert (N : ~ In (p, x) F) by (intros I; apply is_chosen in I; congruence).
    pose proof (beta_1 p x Hp Hx N). pose proof (Pout p x Hp Hx N) as Y. unfold w in Y. rewrite (Pu0 x C) in Y. qlra.
Qed.
Lemma inv_step : inv (k + 1) (next Z).
Proof.
  constructor.
  - intros p x Hp Hx N. rewrite EO_next by auto. pose proof (beta_1 p x Hp Hx N). qlra.
  - intros p x I. rewrite EO_next by apply (in_PT _ _ I). pose proof (beta_2 p x I). qlra.
  - intros d x Hp C. pose proof (Hneed d x (proj2 (proj2 Hp))) as Hx. rewrite K_next by auto.
    destruct (OT_1 x Hx C) as [Y|Y]; [left; qlra|right]. pose proof (Pa x). qlra.
  - intros d x Hp C. pose proof (Hneed d x (proj2 (proj2 Hp))) as Hx. rewrite K_next by auto.
    pose proof (OT_2 x C). pose proof (Pu1 x C). qlra.
  - intros x Hx C. rewrite Nat.add_1_r. apply place_1; auto.
  - intros x Hx C. rewrite Nat.add_1_r. apply place_2; auto.
Qed.
(** decisions *)
Lemma pair_in p x : In (p, x) F -> (qat (CE k) p x + qat (PE k) p x + qat R p x <= (1 + 1) * (Z - delta))%Qc.
Proof.
  intros I. pose proof (gamma_2 p x I). pose proof (beta_2 p x I). destruct (next_facts Z HZ). pose proof (Pin p x I) as Y. unfold w in Y. qlra.
Qed.
Lemma pair_out p x : p < P -> x < T -> ~ In (p, x) F -> (delta - (1 + 1) * Z <= qat (CE k) p x + qat (PE k) p x + qat R p x)%Qc.
Proof.
  intros Hp Hx N. pose proof (gamma_1 p x Hp Hx N). pose proof (beta_1 p x Hp Hx N). destruct (next_facts Z HZ).
  pose proof (Pout p x Hp Hx N) as Y. unfold w in Y. qlra.
Qed.
Lemma team_in x : chosen x = true -> (nth x (OT k) 0 + place k x + nth x reward 0 <= (1 + 1) * (Z - delta))%Qc.
Proof.
  intros C. pose proof (OT_2 x C). pose proof (place_2 x (chosen_T x C) C). pose proof (Pu1 x C). destruct (next_facts Z HZ). qlra.
Qed.
Lemma team_out x : x < T -> chosen x = false ->
  (delta - (1 + 1) * Z <= nth x (OT k) 0 + place k x + nth x reward 0)%Qc \/ (0 <= nth x (OT k) 0 + place k x + nth x reward 0)%Qc.
Proof.
  intros Hx C. pose proof (place_1 x Hx C). pose proof (place_nonneg k x Hx). destruct (next_facts Z HZ).
  destruct (OT_1 x Hx C); [left|right]; qlra.
Qed.
End Step.

(** ** Settling *)
Definition third : Qc := (delta / (1 + 1 + 1))%Qc.
Lemma third_eq : (third + third + third = delta)%Qc.
Proof. unfold third. field. discriminate. Qed.
Definition level (Z0 : Qc) (k : nat) : Qc := let z := (Z0 - qn k * ((1 - be) * third))%Qc in if qltb z third then third else z.
Lemma third_pos : (0 < third)%Qc.
Proof. pose proof third_eq. qlra. Qed.
Lemma next_level Z0 k : (next (level Z0 k) <= level Z0 (k + 1))%Qc.
Proof.
  pose proof third_pos as Tp. pose proof third_eq as Te. set (Z := level Z0 k).
  assert (Z1 : (third <= Z)%Qc) by (unfold Z, level; destruct (qltb_spec (Z0 - qn k * ((1 - be) * third)) third); qlra).
  assert (A : (next Z <= Z - (1 - be) * third)%Qc).
  { unfold next, over. pose proof be0. pose proof be1. destruct (qltb_spec delta Z) as [Lt|Le].
    - assert (Y : (0 <= (1 - be) * (delta - third))%Qc).
      { rewrite <- (Qcmult_0_l (delta - third)). apply Qcmult_le_compat_r; qlra. }
      replace (be * Z + (1 - be) * (Z - delta))%Qc with (Z - (1 - be) * third - (1 - be) * (delta - third))%Qc by ring. qlra.
    - assert (Y : (0 <= (1 - be) * (Z - third))%Qc).
      { rewrite <- (Qcmult_0_l (Z - third)). apply Qcmult_le_compat_r; qlra. }
      replace (be * Z + (1 - be) * 0)%Qc with (Z - (1 - be) * third - (1 - be) * (Z - third))%Qc by ring. qlra. }
  assert (B : (next Z <= Z)%Qc) by (apply next_facts; qlra).
  unfold level. rewrite Nat.add_1_r. cbn [qn].
  destruct (qltb_spec (Z0 - qn k * ((1 - be) * third)) third) as [Lt|Le].
  - assert (E : Z = third) by (unfold Z, level; destruct (qltb_spec (Z0 - qn k * ((1 - be) * third)) third); [reflexivity|qlra]).
    destruct (qltb_spec (Z0 - (qn k + 1) * ((1 - be) * third)) third); qlra.
  - assert (E : Z = (Z0 - qn k * ((1 - be) * third))%Qc) by (unfold Z, level; destruct (qltb_spec (Z0 - qn k * ((1 - be) * third)) third); [qlra|reflexivity]).
    replace (Z0 - (qn k + 1) * ((1 - be) * third))%Qc with (Z - (1 - be) * third)%Qc by (rewrite E; ring).
    destruct (qltb_spec (Z - (1 - be) * third) third); qlra.
Qed.
Lemma level_pos Z0 k : (0 <= level Z0 k)%Qc.
Proof. pose proof third_pos. unfold level. destruct (qltb_spec (Z0 - qn k * ((1 - be) * third)) third); qlra. Qed.
Lemma inv_level Z0 k : inv 0 Z0 -> inv k (level Z0 k).
Proof.
  intros H. induction k as [|k IH].
  - eapply inv_mono; [|exact H]. unfold level. cbn [qn]. destruct (qltb_spec (Z0 - 0 * ((1 - be) * third)) third); qlra.
  - rewrite <- Nat.add_1_r. eapply inv_mono; [apply next_level|]. apply inv_step; [apply level_pos|exact IH].
Qed.
Lemma level_settled Z0 k : (Z0 <= (qn k + 1) * ((1 - alpha) * third))%Qc -> level Z0 k = third.
Proof.
  intros H. unfold level. destruct (qltb_spec (Z0 - qn k * ((1 - be) * third)) third) as [|L]; [reflexivity|].
  apply Qcle_antisym; [|exact L]. pose proof third_pos. pose proof be0. pose proof be1.
  assert (Eb : (be <= alpha)%Qc) by (unfold be, effective; destruct (_ && _); qlra).
  assert (Y : ((qn k + 1) * ((1 - alpha) * third) <= (qn k + 1) * ((1 - be) * third))%Qc).
  { rewrite !(Qcmult_comm (qn k + 1)). apply Qcmult_le_compat_r; [|pose proof (qn_nonneg k); qlra]. apply Qcmult_le_compat_r; qlra. }
  assert (Y' : ((1 - be) * third <= third)%Qc).
  { replace third with (1 * third)%Qc at 2 by ring. apply Qcmult_le_compat_r; qlra. }
  replace ((qn k + 1) * ((1 - be) * third))%Qc with (qn k * ((1 - be) * third) + (1 - be) * third)%Qc in Y by ring. qlra.
Qed.
Lemma inv_start Z0 B fr : (0 <= B)%Qc -> (0 <= fr)%Qc ->
  (forall p x, p < P -> x < T -> (- B <= qat R p x /\ qat R p x <= B)%Qc) ->
  (forall x, x < T -> (- B <= nth x reward 0 /\ nth x reward 0 <= B)%Qc) ->
  (forall x, (- fr <= a x)%Qc) -> (forall p, (- (B + B + fr) <= b p)%Qc) ->
  (B + B + B + fr + delta <= Z0)%Qc -> inv 0 Z0.
Proof.
  intros HB Hfr HR Hr Ha Hb HZ0.
  assert (Kq : forall d x, place_of x d -> x < T /\ qat (K 0) d x = nth x reward 0%Qc).
  { intros d x (H1 & H2 & H3). pose proof (Hneed d x H3) as Hx. split; [exact Hx|]. rewrite HK0 by auto. now rewrite (proj2 (part_share d x) H3). }
  constructor.
  - intros p x Hp Hx N. rewrite HEO0. pose proof (HR p x Hp Hx). pose proof (Hb p). qlra.
  - intros p x I. rewrite HEO0. pose proof (in_PT _ _ I) as (Hp & Hx). pose proof (HR p x Hp Hx). pose proof (Pb1 p x I). qlra.
  - intros d x Hp C. destruct (Kq d x Hp) as (Hx & ->). pose proof (Hr x Hx). pose proof (Pa x). left. qlra.
  - intros d x Hp C. destruct (Kq d x Hp) as (Hx & ->). pose proof (Hr x Hx). pose proof (Ha x). qlra.
  - intros x Hx C. cbn [before]. pose proof (Ha x). qlra.
  - intros x Hx C. cbn [before]. pose proof (Pa x). qlra.
Qed.
Lemma settled Z0 B fr k : (0 <= B)%Qc -> (0 <= fr)%Qc ->
  (forall p x, p < P -> x < T -> (- B <= qat R p x /\ qat R p x <= B)%Qc) ->
  (forall x, x < T -> (- B <= nth x reward 0 /\ nth x reward 0 <= B)%Qc) ->
  (forall x, (- fr <= a x)%Qc) -> (forall p, (- (B + B + fr) <= b p)%Qc) ->
  (B + B + B + fr + delta <= Z0)%Qc -> (Z0 <= (qn k + 1) * ((1 - alpha) * third))%Qc ->
  (forall p x, In (p, x) F -> (qat (CE k) p x + qat (PE k) p x + qat R p x <= - delta)%Qc) /\
  (forall p x, p < P -> x < T -> ~ In (p, x) F -> (third <= qat (CE k) p x + qat (PE k) p x + qat R p x)%Qc) /\
  (forall x, chosen x = true -> (nth x (OT k) 0 + place k x + nth x reward 0 <= - delta)%Qc) /\
  (forall x, x < T -> chosen x = false -> (0 <= nth x (OT k) 0 + place k x + nth x reward 0)%Qc).
Proof.
  intros HB Hfr HR Hr Ha Hb HZ0 Hk. pose proof third_eq as Te. pose proof third_pos as Tp.
  assert (HI : inv k third).
  { rewrite <- (level_settled Z0 k Hk). apply inv_level, (inv_start Z0 B fr); auto. }
  assert (H0 : (0 <= third)%Qc) by qlra. split; [|split; [|split]].
  - intros p x I. pose proof (pair_in k third H0 HI p x I). qlra.
  - intros p x Hp Hx N. pose proof (pair_out k third H0 HI p x Hp Hx N). qlra.
  - intros x C. pose proof (team_in k third H0 HI x C). qlra.
  - intros x Hx C. destruct (team_out k third H0 HI x Hx C); qlra.
Qed.
End Best.
