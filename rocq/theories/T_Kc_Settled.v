(** * Property C79: settled KC-MWM messages give locally cheapest selections. *)
From Coq Require Import Permutation.
From Verif Require Import Num NumFacts Arr ArrFacts Spec SpecRun SpecGraph SpecCover SpecSelection SpecSettled MinSum MinSumFacts.
From Verif Require Import M_InOut P_InOut T_InOut M_Runs P_Runs T_Schedule P_Ksat P_PyRef_Ksat T_PyRef_Run.
From Verif Require Import P_Assign P_Tsp_Assign P_Tsp_Order P_Ksat_Limit P_Kc_Dual P_Kc_Messages P_Kc_Best T_Tsp_Assign.
From Verif Require Import M_Kc_Py SpecKc P_Kc_Gen P_Kc_Post P_Kc_Results P_Kc_Call T_Kc_Py T_Kc_Best.
From Verif Require Import P_Equality P_Settled P_Kc_Settled.
Local Open Scope nat_scope.

(** ** The messages of a run *)

Lemma row_map (M : list (list Qc)) P T p : shape P T M -> p < P -> nth p M [] = map (qat M p) (seq 0 T).
Proof.
  intros (L & S) Hp. rewrite Forall_forall in S. assert (Lp : length (nth p M []) = T) by (apply S, nth_In; now rewrite L).
  apply nth_ext with (d := 0%Qc) (d' := 0%Qc); [now rewrite map_length, seq_length|].
  intros x Hx. now rewrite nth_mapseq by lia.
Qed.
Lemma package_messages T D P W R reward caps iters flag alpha : kc_instance T D P W R reward caps -> iters <> 0 ->
  exists (ext pairs : list Qc) A Dm X TO OT EO CE EP PE,
    package_kc T D P W (inj R) (map Fin reward) caps iters flag (Fin alpha) =
      Some (map Fin ext, zip_with nadd (map Fin ext) (map Fin reward), map Fin pairs) /\
    length ext = T /\ length pairs = P * T /\
    team_messages T D P W R reward caps flag alpha A Dm X TO OT EO CE EP PE /\
    (forall x, x < T -> nth x ext 0%Qc = (OT (iters - 1)%nat x + qsum (map (fun d => X (iters - 1)%nat d x) (seq 0 D)))%Qc) /\
    (forall p x, p < P -> x < T -> nth (p * T + x) pairs 0%Qc = (CE (iters - 1)%nat p x + PE (iters - 1)%nat p x + qat R p x)%Qc).
Proof.
  intros (HW & HR & Hr & Hc & Hp & Hfit & Htwo) Hi.
  destruct (C50_kc_run iters T D P W R reward caps flag alpha HW HR Hr Hc Hp Hfit Htwo) as
    (ext & intr & K & EO & Dm & X & TO & CE & EP & PE & OT & E & L1 & L2 & K0 & EO0 & SEP & St & Re & Rp).
  exists ext, intr, (fun t => qat (K t)), (fun t => qat (Dm t)), (fun t => qat (X t)), (fun t x => nth x (TO t) 0%Qc),
    (fun t x => nth x (OT t) 0%Qc), (fun t => qat (EO t)), (fun t => qat (CE t)), (fun t => qat (EP t)), (fun t => qat (PE t)).
  split; [|split; [exact L1|split; [exact L2|split; [|split]]]].
  - unfold package_kc. cbn zeta. rewrite E. reflexivity.
  - assert (Wide : forall d x, d < D -> takes_part W d x = true -> x < T).
    { intros d x Hd H. destruct (Nat.lt_ge_cases x T) as [|G]; [auto|]. unfold takes_part in H. destruct HW as (LW & SW).
      rewrite nth_overflow in H; [discriminate|]. rewrite Forall_forall in SW. rewrite SW; [exact G|]. apply nth_In. now rewrite LW. }
    split; [|split; [intros; apply EO0|]].
    + intros d x Hd H. rewrite K0, H; eauto.
    + intro t. destruct (St t) as (S1 & S2 & S3 & S4 & S5 & S6). split; [|split; [|split; [|split; [|split; [|split]]]]]; auto.
      * intros d ws cap Gw Gc. apply (S1 d ws cap Gw Gc).
      * intros d x Hd Hx Tp. destruct HW as (LW & _). assert (Gw : nth_error W d = Some (nth d W [])) by (apply nth_error_nth'; now rewrite LW).
        assert (Gc : nth_error caps d = Some (nth d caps 0)) by (apply nth_error_nth'; now rewrite Hc). apply (S1 d _ _ Gw Gc); auto.
      * intros p x Hpp Hx. destruct (S4 p x Hpp Hx) as (A1 & A2 & A3 & A4). split; [exact A1|]. split; [exact A2|]. split; [|exact A4].
        now rewrite (row_map (EP t) P T p (SEP t) Hpp) in A3.
      * intros d x Hd Hx Tp. rewrite S6, Tp by auto. reflexivity.
  - intros x Hx. rewrite Re by auto. apply Nat.eqb_neq in Hi. now rewrite Hi.
  - intros p x Hpp Hx. rewrite Rp by auto. apply Nat.eqb_neq in Hi. now rewrite Hi.
Qed.

Lemma filtered_same flag a d d' t : (forall r, r <= t -> d r = d' r) -> filtered flag a d t = filtered flag a d' t.
Proof.
  intro H. unfold filtered. destruct (flag && negb (Qc_eq_bool a 0)); [|apply H; auto]. f_equal. apply map_ext_in.
  intros i I. apply in_seq in I. rewrite H; auto. lia.
Qed.

(** the equations determine the messages *)
Section Unique.
Variables (T D P : nat) (W : list (list nat)) (R : list (list Qc)) (reward : list Qc) (caps : list nat) (flag : bool) (alpha : Qc).
Hypothesis Inst : kc_instance T D P W R reward caps.
Variables (A Dm X : nat -> nat -> nat -> Qc) (TO OT : nat -> nat -> Qc) (EO CE EP PE : nat -> nat -> nat -> Qc).
Variables (A' Dm' X' : nat -> nat -> nat -> Qc) (TO' OT' : nat -> nat -> Qc) (EO' CE' EP' PE' : nat -> nat -> nat -> Qc).
Hypothesis M : team_messages T D P W R reward caps flag alpha A Dm X TO OT EO CE EP PE.
Hypothesis M' : team_messages T D P W R reward caps flag alpha A' Dm' X' TO' OT' EO' CE' EP' PE'.

Lemma kc_wide d x : d < D -> takes_part W d x = true -> x < T.
Proof.
  destruct Inst as (HW & _). intros Hd H. destruct (Nat.lt_ge_cases x T) as [|G]; [auto|]. unfold takes_part in H. destruct HW as (LW & SW).
  rewrite nth_overflow in H; [discriminate|]. rewrite Forall_forall in SW. rewrite SW; [exact G|]. apply nth_In. now rewrite LW.
Qed.
Lemma kc_rows d : d < D -> nth_error W d = Some (nth d W []) /\ nth_error caps d = Some (nth d caps 0).
Proof. destruct Inst as ((LW & _) & _ & _ & Hc & _). intro Hd. split; apply nth_error_nth'; lia. Qed.

Definition inputs_agree t : Prop :=
  (forall d x, d < D -> takes_part W d x = true -> A t d x = A' t d x) /\
  (forall p x, p < P -> x < T -> EO t p x = EO' t p x).
Definition outputs_agree t : Prop :=
  (forall d x, d < D -> x < T -> X t d x = X' t d x) /\ (forall x, x < T -> TO t x = TO' t x) /\
  (forall p x, p < P -> x < T -> CE t p x = CE' t p x /\ EP t p x = EP' t p x /\ PE t p x = PE' t p x /\ EO (t + 1) p x = EO' (t + 1) p x) /\
  (forall x, x < T -> OT t x = OT' t x).
Lemma dept_agree t : inputs_agree t -> forall d x, d < D -> x < T -> Dm t d x = Dm' t d x.
Proof.
  intros (HA & _) d x Hd Hx. destruct M as (_ & _ & St), M' as (_ & _ & St'). destruct (kc_rows d Hd) as (Gw & Gc).
  destruct (takes_part W d x) eqn:Tp.
  - assert (I : In x (participants T (nth d W []))) by (unfold participants; apply filter_In; split; [apply in_seq; lia|exact Tp]).
    apply In_nth_error in I as (i & G). pose proof (proj1 (St t) d _ _ Gw Gc i x G) as Q. pose proof (proj1 (St' t) d _ _ Gw Gc i x G) as Q'.
    rewrite (map_ext_in (A t d) (A' t d)) in Q.
    + pose proof (minsum_message_unique _ _ _ _ _ Q Q') as Z. congruence.
    + intros z Iz. apply HA; auto. unfold participants in Iz. apply filter_In in Iz. tauto.
  - destruct (St t) as (_ & Z & _), (St' t) as (_ & Z' & _). now rewrite Z, Z'.
Qed.
Lemma step_agree t : (forall r, r <= t -> inputs_agree r) -> outputs_agree t.
Proof.
  intro HI. pose proof M as (_ & _ & St). pose proof M' as (_ & _ & St').
  destruct (St t) as (_ & _ & S3 & S4 & S5 & S6 & _), (St' t) as (_ & _ & S3' & S4' & S5' & S6' & _).
  assert (EX : forall d x, d < D -> x < T -> X t d x = X' t d x).
  { intros d x Hd Hx. rewrite S3, S3' by auto. apply filtered_same. intros r Hr. apply dept_agree; auto. }
  assert (ET : forall x, x < T -> TO t x = TO' t x).
  { intros x Hx. rewrite S4, S4' by auto. f_equal. apply sum_ext. intros d I. apply in_seq in I. apply EX; auto. lia. }
  destruct (HI t (le_n t)) as (_ & HE).
  assert (EC : forall p x, p < P -> x < T -> CE t p x = CE' t p x).
  { intros p x Hp Hx. destruct (S5 p x Hp Hx) as (Q & _), (S5' p x Hp Hx) as (Q' & _). rewrite (ET x Hx) in Q.
    rewrite (map_ext_in (fun p => EO t p x) (fun p => EO' t p x)) in Q by (intros q I; apply in_seq in I; apply HE; auto; lia).
    pose proof (minsum_message_unique _ _ _ _ _ Q Q') as Z. congruence. }
  assert (EEP : forall p x, p < P -> x < T -> EP t p x = EP' t p x).
  { intros p x Hp Hx. destruct (S5 p x Hp Hx) as (_ & Q & _), (S5' p x Hp Hx) as (_ & Q' & _). rewrite Q, Q', EC; auto. }
  assert (EPE : forall p x, p < P -> x < T -> PE t p x = PE' t p x).
  { intros p x Hp Hx. destruct (S5 p x Hp Hx) as (_ & _ & Q & _), (S5' p x Hp Hx) as (_ & _ & Q' & _).
    rewrite (map_ext_in (EP t p) (EP' t p)) in Q by (intros q I; apply in_seq in I; apply EEP; auto; lia).
    pose proof (minsum_message_unique _ _ _ _ _ Q Q') as Z. congruence. }
  assert (EEO : forall p x, p < P -> x < T -> EO (t + 1) p x = EO' (t + 1) p x).
  { intros p x Hp Hx. destruct (S5 p x Hp Hx) as (_ & _ & _ & Q), (S5' p x Hp Hx) as (_ & _ & _ & Q'). rewrite Q, Q', EPE; auto. }
  split; [exact EX|]. split; [exact ET|]. split; [auto 10|].
  intros x Hx. destruct (S6 x Hx) as (v & Q & Ov), (S6' x Hx) as (v' & Q' & Ov'). rewrite (ET x Hx) in Q.
  rewrite (map_ext_in (fun p => EO (t + 1) p x) (fun p => EO' (t + 1) p x)) in Q by (intros q I; apply in_seq in I; apply EEO; auto; lia).
  rewrite (minsum_message_unique _ _ _ _ _ Q Q') in Ov. rewrite <- Ov' in Ov. congruence.
Qed.
Lemma messages_agree t : (forall r, r <= t -> inputs_agree r).
Proof.
  pose proof M as (A0 & E0 & St). pose proof M' as (A0' & E0' & St').
  induction t as [|t IH]; intros r Hr.
  - assert (r = 0) by lia. subst r. split; [intros d x Hd Tp; now rewrite A0, A0'|intros p x Hp Hx; now rewrite E0, E0'].
  - destruct (Nat.eq_dec r (S t)) as [->|N]; [|apply IH; lia]. destruct (step_agree t IH) as (EX & _ & EE & EO1). rewrite <- Nat.add_1_r. split.
    + intros d x Hd Tp. pose proof (kc_wide d x Hd Tp) as Hx. destruct (St t) as (_ & _ & _ & _ & _ & _ & S7), (St' t) as (_ & _ & _ & _ & _ & _ & S7').
      rewrite S7, S7', EO1 by auto. f_equal. apply sum_ext. intros k I. apply filter_In in I as (I & _). unfold others in I. apply filter_In in I as (I & _).
      apply in_seq in I. apply EX; auto. lia.
    + intros p x Hp Hx. now apply EE.
Qed.
Lemma outputs_equal t : outputs_agree t.
Proof. apply step_agree, messages_agree. Qed.
End Unique.

(** ** Settled messages *)

Lemma sorted_filter q n : forall a i j, i < j -> j < length (filter q (seq a n)) -> nth i (filter q (seq a n)) 0 < nth j (filter q (seq a n)) 0.
Proof.
  induction n as [|n IH]; intro a; cbn [seq filter length]; [intros; lia|].
  destruct (q a); [|apply IH]. intros [|i] [|j] Hij Hj; try lia; cbn [length] in Hj.
  - change (a < nth j (filter q (seq (S a) n)) 0). assert (I : In (nth j (filter q (seq (S a) n)) 0) (filter q (seq (S a) n))) by (apply nth_In; lia).
    apply filter_In in I as (I & _). apply in_seq in I. lia.
  - change (nth i (filter q (seq (S a) n)) 0 < nth j (filter q (seq (S a) n)) 0). apply IH; lia.
Qed.
Lemma two_departments T D P W R reward caps : kc_instance T D P W R reward caps ->
  forall x, length (filter (fun d => takes_part W d x) (seq 0 D)) <= 2.
Proof.
  intros (_ & _ & _ & _ & _ & _ & Htwo) x. set (l := filter (fun d => takes_part W d x) (seq 0 D)).
  destruct (Nat.le_gt_cases (length l) 2) as [|G]; [auto|]. exfalso.
  assert (Srt : forall i j, i < j -> j < length l -> nth i l 0 < nth j l 0).
  { intros i j Hij Hj. now apply sorted_filter. }
  assert (I : forall i, i < length l -> nth i l 0 < D /\ takes_part W (nth i l 0) x = true).
  { intros i Hi. assert (J : In (nth i l 0) l) by now apply nth_In. unfold l in J at 2. apply filter_In in J as (J & Q). apply in_seq in J. split; [lia|exact Q]. }
  destruct (Htwo (nth 0 l 0) (nth 1 l 0) (nth 2 l 0) x) as [Z|[Z|Z]].
  - split; apply Srt; lia.
  - apply I. lia.
  - destruct (I 0) as (_ & Q); [lia|]. unfold takes_part in Q. rewrite Z in Q. discriminate.
  - destruct (I 1) as (_ & Q); [lia|]. unfold takes_part in Q. rewrite Z in Q. discriminate.
  - destruct (I 2) as (_ & Q); [lia|]. unfold takes_part in Q. rewrite Z in Q. discriminate.
Qed.
Lemma shift_left e b a r c : supports e b a r -> supports e b (a + c) (r + c).
Proof. unfold supports. destruct (qltb b 0); intro; qlra. Qed.

(** If the values of the teams and pairs are settled, the pairs of negative value are a selection, the teams
    of negative value are its teams, and no assignment is cheaper: departments that exchange one team or
    none compare by their capacity, all others by their messages. *)
Theorem C79_selection :
  forall T D P W (R : list (list Qc)) (reward : list Qc) caps iters flag (alpha e e2 : Qc) (ext intr pairs : list Qc)
         A Dm X TO OT EO CE EP PE,
    kc_instance T D P W R reward caps -> 0 < T -> iters <> 0 ->
    package_kc T D P W (inj R) (map Fin reward) caps iters flag (Fin alpha) = Some (map Fin ext, map Fin intr, map Fin pairs) ->
    team_messages T D P W R reward caps flag alpha A Dm X TO OT EO CE EP PE ->
    (0 <= e)%Qc -> (0 <= e2)%Qc ->
    teams_settled T D P W e e2 (iters - 1) intr pairs Dm X TO OT CE ->
    exists F, selection T D P W caps F /\
      (forall p x, p < P -> x < T -> (In (p, x) F <-> (nth (p * T + x) pairs 0 < 0)%Qc)) /\
      (forall x, x < T -> ((exists p, In (p, x) F) <-> (nth x intr 0 < 0)%Qc)) /\
      not_improved T D P W caps R reward (X (iters - 1)) (zq 3 * e + zq 5 * e2) F.
Proof.
  intros T D P W R reward caps iters flag alpha e e2 ext intr pairs A Dm X TO OT EO CE EP PE Inst HT Hi Ep M He He2 (S1 & S2 & S3).
  destruct (package_messages T D P W R reward caps iters flag alpha Inst Hi) as
    (ext0 & pairs0 & A0 & Dm0 & X0 & TO0 & OT0 & EO0 & CE0 & EP0 & PE0 & Ep0 & Lx & Lp & M0 & Rx & Rp).
  rewrite Ep in Ep0. injection Ep0 as Q1 Q2 Q3. apply fin_inj in Q1, Q3. subst ext0 pairs0. rewrite zip_with_Fin in Q2. apply fin_inj in Q2.
  pose proof Inst as (HW & HR & Hr & Hc & Hp & Hfit & Htwo).
  set (s := iters - 1) in *.
  destruct (outputs_equal T D P W R reward caps flag alpha Inst _ _ _ _ _ _ _ _ _ _ _ _ _ _ _ _ _ _ M M0 s) as (UX & _ & UP & UO).
  pose proof M as (_ & _ & St). destruct (St s) as (_ & Z0 & Fl & Tm & Pr & Cl & Nx). destruct (St (s + 1)) as (Dn & _ & _ & _ & Pn & _ & _).
  assert (BT : forall x, x < T -> nth x intr 0%Qc = (nth x reward 0 + OT s x + qsum (map (fun d => X s d x) (seq 0 D)))%Qc).
  { intros x Hx. rewrite Q2, nth_qplus by lia. rewrite Rx, <- UO by auto. rewrite (sum_ext (fun d => X0 s d x) (fun d => X s d x)); [ring|].
    intros d I. apply in_seq in I. symmetry. apply UX; auto. lia. }
  assert (BP : forall p x, p < P -> x < T -> nth (p * T + x) pairs 0%Qc = (CE s p x + PE s p x + qat R p x)%Qc).
  { intros p x Hpp Hx. rewrite Rp by auto. destruct (UP p x Hpp Hx) as (-> & _ & -> & _). reflexivity. }
  assert (X00 : forall d x, d < D -> x < T -> takes_part W d x = false -> X s d x = 0%Qc).
  { intros d x Hd Hx Tp. rewrite Fl by auto. apply filtered_none. intros i _. destruct (St i) as (_ & Z & _). now apply Z. }
  assert (Wide : forall d x, takes_part W d x = true -> x < T).
  { intros d x Tp. destruct (Nat.lt_ge_cases d D) as [Hd|Hd]; [exact (kc_wide T D P W R reward caps Inst d x Hd Tp)|].
    unfold takes_part in Tp. destruct HW as (LW & _). rewrite (nth_overflow W) in Tp by lia. destruct x; discriminate. }
  destruct (settled_selection T D P W caps R reward HT) with (A' := A (s + 1)) (Dm' := Dm (s + 1)) (fX := X s) (TO' := TO (s + 1)) (OT := OT s)
    (EO' := EO (s + 1)) (CE := CE s) (CE' := CE (s + 1)) (EP := EP s) (PE := PE s) (bT := fun x => nth x intr 0%Qc)
    (bP := fun p x => nth (p * T + x) pairs 0%Qc) (e := e) (e2 := e2) as (F & SF & Vp & Vt & Op); auto.
  - exact (proj1 HW).
  - intros d Hd. destruct (kc_rows T D P W R reward caps Inst d Hd) as (Gw & _). destruct (Hp d _ Gw) as (x & w & Gx & Nw).
    intro Z. assert (I : In x (participants T (nth d W []))); [|rewrite Z in I; destruct I].
    apply (nth_error_nth _ _ 0) in Gx. unfold participants. apply filter_In. assert (Tp : takes_part W d x = true) by (unfold takes_part; rewrite Gx; apply negb_true_iff; now apply Nat.eqb_neq).
    split; [apply in_seq; specialize (Wide d x Tp); lia|exact Tp].
  - exact (two_departments T D P W R reward caps Inst).
  - intros d x Hd Tp. pose proof (Wide d x Tp) as Hx. rewrite Nx, BT by auto.
    rewrite (sum_filter (fun d' => X s d' x) (fun d' => takes_part W d' x)).
    rewrite (sum_ext (fun a => if takes_part W a x then X s a x else 0%Qc) (fun a => X s a x)).
    + rewrite (sum_split_one (f := fun a => X s a x) d (seq 0 D)) by (try apply seq_NoDup; apply in_seq; lia). ring.
    + intros a I. unfold others in I. apply filter_In in I as (I & _). apply in_seq in I. destruct (takes_part W a x) eqn:Ta; [reflexivity|]. symmetry. apply X00; auto. lia.
  - intros p x Hpp Hx. destruct (Pr p x Hpp Hx) as (_ & _ & _ & ->). rewrite BP by auto. ring.
  - intros p x Hpp Hx. destruct (Pr p x Hpp Hx) as (_ & -> & _). rewrite BP by auto. ring.
  - intros x Hx. destruct (S1 x Hx) as (_ & _ & Sa & Sb). cbv zeta in Sa, Sb.
    assert (Eb : nth x intr 0%Qc = (TO s x + OT s x)%Qc) by (rewrite BT, Tm by auto; ring).
    set (b := nth x intr 0%Qc) in *. clearbody b. rewrite Eb at 2. rewrite Eb at 3. split; now apply shift_left.
  - intros d k x Hd G. destruct (kc_rows T D P W R reward caps Inst d Hd) as (Gw & Gc). exact (Dn d _ _ Gw Gc k x G).
  - intros x Hx. destruct (Cl x Hx) as (v & Mv & Ev). destruct (S1 x Hx) as (_ & Lo & _). apply message_first with (a := TO s x).
    unfold nmin in Ev. destruct (nlt v (zn 1000000)); [now rewrite Ev|]. exfalso. injection Ev as Ev. rewrite Ev in Lo. exact (Qclt_not_eq _ _ Lo eq_refl).
  - intros p x Hpp Hx. now apply Pn.
  - intros p x Hpp Hx. now apply Pr.
  - intros p x Hpp Hx. now apply S3.
  - intros x Hx. now apply S1.
  - intros p x Hpp Hx. now apply S3.
  - exists F. split; [exact SF|]. split; [|split].
    + intros p x Hpp Hx. rewrite <- has_in, (Vp p x Hpp Hx), qltb_true. reflexivity.
    + intros x Hx. rewrite <- pick_in, (Vt x Hx), qltb_true. reflexivity.
    + exact Op.
Qed.

(** The same for the call of the package: the teams reported are those of the selection. *)
Theorem C79_call :
  forall iters flag (alpha th e e2 : Qc) pp opt caps types (rt : list Qc) (rp : list (list Qc)) P o teams (ext intr pairs : list Qc)
         A Dm X TO OT EO CE EP PE,
    Forall (fun ty => 1 <= ty <= 5) types -> types <> [] ->
    kc_initialize caps types = Some o -> room caps types (o_combos o) -> generated caps types (o_combos o) teams ->
    (pp = true -> opt = 1 \/ opt = 2) -> length rt = length teams -> shape (length teams) P rp -> iters <> 0 ->
    let T := length teams in let D := length caps in let W := o_weights o in let R := columns P rp in
    package_kc T D P W (inj R) (map Fin rt) caps iters flag (Fin alpha) = Some (map Fin ext, map Fin intr, map Fin pairs) ->
    team_messages T D P W R rt caps flag alpha A Dm X TO OT EO CE EP PE ->
    (0 <= e)%Qc -> (0 <= e2)%Qc -> (- e <= th)%Qc -> (th <= 0)%Qc ->
    teams_settled T D P W e e2 (iters - 1) intr pairs Dm X TO OT CE ->
    exists F a,
      kc_call iters flag (Fin alpha) (Fin th) pp opt caps types (map Fin rt) (inj rp) = Some a /\
      selection T D P W caps F /\
      (forall p x, p < P -> x < T -> (In (p, x) F <-> (nth (p * T + x) pairs 0 < 0)%Qc)) /\
      not_improved T D P W caps R rt (X (iters - 1)) (zq 3 * e + zq 5 * e2) F /\
      Permutation (p_pairs (a_pre a)) F /\
      Permutation (q_sel (a_post a)) (map snd F) /\
      Permutation (a_results a) (map (fun e =>
        {| r_u := u_of teams (snd e); r_v := v_of teams (snd e); r_type := t_type (nth (snd e) teams (0, 0, 0));
           r_teams := [snd e + 1]; r_projects := [fst e + 1] |}) F) /\
      kc_final_exceeded o (a_post a) = Some false.
Proof.
  intros iters flag alpha th e e2 pp opt caps types rt rp P o teams ext intr pairs A Dm X TO OT EO CE EP PE Ht Hne E Hroom Hg Hopt Lr Sr Hi T D W R Ep M He He2 Hth1 Hth2 S.
  destruct (call_instance _ _ _ _ _ _ _ Ht Hne E Hroom Hg Lr Sr) as (Inst & _ & _ & HD).
  assert (HT : 0 < T).
  { pose proof Inst as (HW & _ & _ & _ & Hp & _). destruct (kc_rows _ _ _ _ _ _ _ Inst 0 ltac:(lia)) as (Gw & _).
    destruct (Hp 0 _ Gw) as (x & w & Gx & Nw). assert (x < T); [|lia]. eapply (kc_wide _ _ _ _ _ _ _ Inst 0 x); [lia|].
    unfold takes_part. rewrite (nth_error_nth _ _ _ Gx). apply negb_true_iff. now apply Nat.eqb_neq. }
  destruct (C79_selection T D P W R rt caps iters flag alpha e e2 ext intr pairs A Dm X TO OT EO CE EP PE Inst HT Hi Ep M He He2 S) as (F & SF & Vp & _ & Op).
  destruct (call_reports iters flag alpha th pp opt caps types rt rp P o teams F ext (map Fin intr) pairs) as (a & Ea & Pa & Rest); auto.
  - intros p x Hp Hx. rewrite (Vp p x Hp Hx). destruct S as (_ & _ & S3). destruct (S3 p x Hp Hx) as (G & _). cbv zeta in G.
    fold T in Hx |- *. set (v := nth (p * T + x) pairs 0%Qc) in *. split; intro; destruct G; qlra.
  - exists F, a. split; [exact Ea|]. split; [exact SF|]. split; [exact Vp|]. split; [exact Op|]. split; [exact Pa|exact Rest].
Qed.

(** ** The messages by computation *)

Fixpoint configs (n : nat) : list (list bool) :=
  match n with O => [[]] | S n => map (cons true) (configs n) ++ map (cons false) (configs n) end.
Definition brute (ok : list bool -> bool) (m : list Qc) (i : nat) (b : bool) : num :=
  nmins (map Fin (map (rest i m) (filter (fun x => ok x && Bool.eqb (nth i x (negb b)) b) (configs (length m))))).
Definition brute_message (ok : list bool -> bool) (m : list Qc) (i : nat) : num := nsub (brute ok m i true) (brute ok m i false).
Definition number (v : num) : Qc := match v with Fin q => q | _ => 0%Qc end.

Lemma in_configs n x : In x (configs n) <-> length x = n.
Proof.
  revert x. induction n as [|n IH]; intro x; cbn [configs].
  - cbn. split; [intros [<-|[]]; reflexivity|]. destruct x; [auto|discriminate].
  - rewrite in_app_iff, !in_map_iff. split.
    + intros [(z & <- & I)|(z & <- & I)]; apply IH in I; cbn; congruence.
    + destruct x as [|[|] x]; [discriminate| |]; cbn; intros [= L]; [left|right]; exists x; (split; [reflexivity|now apply IH]).
Qed.
Lemma brute_best (ok : list bool -> bool) al m i b : (forall x, ok x = true <-> al x) -> i < length m -> MinSum.best al m i b (brute ok m i b).
Proof.
  intros H Hi. unfold MinSum.best, brute. set (l := filter _ _).
  assert (I : forall q, In q (map (rest i m) l) <-> exists x, length x = length m /\ al x /\ nth_error x i = Some b /\ q = rest i m x).
  { intro q. rewrite in_map_iff. split.
    - intros (x & <- & J). unfold l in J. apply filter_In in J as (J & K). apply in_configs in J. apply andb_prop in K as (K1 & K2).
      apply Bool.eqb_prop in K2. exists x. split; [exact J|]. split; [now apply H|]. split; [|reflexivity].
      rewrite (nth_error_nth' x (negb b)) by lia. now rewrite K2.
    - intros (x & L & Al & G & ->). exists x. split; [reflexivity|]. unfold l. apply filter_In. split; [now apply in_configs|].
      rewrite (proj2 (H x) Al), (nth_error_nth _ _ _ G). cbn. apply Bool.eqb_reflx. }
  pose proof (nmins_is_min (map (rest i m) l)) as Q. destruct (nmins (map Fin (map (rest i m) l))); cbn in Q |- *; auto.
  - destruct Q as (Q1 & Q2). split; [now apply I|]. intros r Hr. apply Q2. now apply I.
  - intros r Hr. apply (Q r). now apply I.
Qed.
Lemma brute_ok ok al m i : (forall x, ok x = true <-> al x) -> i < length m -> minsum_message al m i (brute_message ok m i).
Proof. intros H Hi. exists (brute ok m i true), (brute ok m i false). split; [now apply brute_best|]. split; [now apply brute_best|reflexivity]. Qed.
Lemma brute_finite ok al m i : (forall x, ok x = true <-> al x) -> i < length m ->
  (forall b, exists x, length x = length m /\ al x /\ nth_error x i = Some b) -> minsum_message al m i (Fin (number (brute_message ok m i))).
Proof.
  intros H Hi Ex. assert (F : forall b, exists q, brute ok m i b = Fin q).
  { intro b. pose proof (brute_best ok al m i b H Hi) as B. destruct (Ex b) as (x & L & Al & G). unfold MinSum.best in B.
    destruct (brute ok m i b) as [q| | |]; [eauto| |destruct B|destruct B]. exfalso. apply (B (rest i m x)). eauto. }
  pose proof (brute_ok ok al m i H Hi) as Q. unfold brute_message in *. destruct (F true) as (q1 & E1), (F false) as (q0 & E0). rewrite E1, E0 in *. exact Q.
Qed.

Lemma all_false n (al : list bool -> Prop) (m : list Qc) i : length m = n -> al (repeat false n) -> i < n -> exists x, length x = length m /\ al x /\ nth_error x i = Some false.
Proof. intros L Al Hi. exists (repeat false n). rewrite repeat_length. split; [auto|]. split; [exact Al|]. now apply nth_error_repeat. Qed.
Lemma ones_repeat n : ones (repeat false n) = 0.
Proof. unfold ones. induction n as [|n IH]; [reflexivity|]. cbn. exact IH. Qed.
Lemma ones_hot p l : NoDup l -> ones (map (Nat.eqb p) l) <= 1.
Proof. intro N. apply ones_le; auto. intros a b _ _ Ea Eb. apply Nat.eqb_eq in Ea, Eb. congruence. Qed.
Lemma ones_one p n : p < n -> ones (map (Nat.eqb p) (seq 0 n)) = 1.
Proof. intro H. rewrite P_Tsp_Settled.ones_map, (filter_one p); [reflexivity|apply seq_NoDup|apply in_seq; lia|]. intros b _. apply Nat.eqb_eq. Qed.

Section Computed.
Variables (T D P : nat) (W : list (list nat)) (R : list (list Qc)) (reward : list Qc) (caps : list nat) (flag : bool) (alpha : Qc).
Definition tab (r c : nat) (f : nat -> nat -> Qc) : list (list Qc) := map (fun i => map (f i) (seq 0 c)) (seq 0 r).
Definition coupledb (x : list bool) : bool := match x with [] => true | team :: projects => ones projects =? if team then 1 else 0 end.
Definition at_mostb (x : list bool) : bool := ones x <=? 1.
Definition withinb (w : list nat) (cap : nat) (x : list bool) : bool := weight w x <=? cap.
(** place of [x] in [l] *)
Fixpoint place (x : nat) (l : list nat) : nat := match l with [] => 0 | y :: l => if y =? x then 0 else S (place x l) end.
Record ktables := { kA : list (list Qc); kEO : list (list Qc); kF : list (list Qc) }.
Definition eDm (s : ktables) : list (list Qc) :=
  tab D T (fun d x => let l := participants T (nth d W []) in
    if takes_part W d x then
      number (brute_message (withinb (map (fun x => nth x (nth d W []) 0) l) (nth d caps 0)) (map (qat (kA s) d) l) (place x l))
    else 0%Qc).
Definition eX (s : ktables) : list (list Qc) :=
  let M := eDm s in tab D T (fun d x => effective flag alpha * qat (kF s) d x + (1 - effective flag alpha) * qat M d x)%Qc.
Definition eTO (s : ktables) : list (list Qc) :=
  let M := eX s in tab 1 T (fun _ x => nth x reward 0 + qsum (map (fun d => qat M d x) (seq 0 D)))%Qc.
Definition eCE (s : ktables) : list (list Qc) :=
  let M := eTO s in tab P T (fun p x => number (brute_message coupledb (qat M 0 x :: map (fun p => qat (kEO s) p x) (seq 0 P)) (S p))).
Definition eEP (s : ktables) : list (list Qc) :=
  let M := eCE s in tab P T (fun p x => qat M p x + qat R p x)%Qc.
Definition ePE (s : ktables) : list (list Qc) :=
  let M := eEP s in tab P T (fun p x => number (brute_message at_mostb (map (qat M p) (seq 0 T)) x)).
Definition eEO (s : ktables) : list (list Qc) :=
  let M := ePE s in tab P T (fun p x => qat M p x + qat R p x)%Qc.
Definition eOT (s : ktables) : list (list Qc) :=
  let M := eTO s in let N := eEO s in
  tab 1 T (fun _ x => number (nmin (zn 1000000) (brute_message coupledb (qat M 0 x :: map (fun p => qat N p x) (seq 0 P)) 0))).
Definition kstep (s : ktables) : ktables :=
  let X := eX s in let O := eOT s in
  {| kA := tab D T (fun d x => nth x reward 0 + qat O 0 x +
       qsum (map (fun d' => qat X d' x) (filter (fun d' => takes_part W d' x) (others d (seq 0 D)))))%Qc;
     kEO := eEO s; kF := X |}.
Fixpoint kat (t : nat) : ktables :=
  match t with
  | O => {| kA := tab D T (fun _ x => nth x reward 0%Qc); kEO := tab P T (fun _ _ => 0%Qc); kF := tab D T (fun _ _ => 0%Qc) |}
  | S t => kstep (kat t)
  end.
Definition fA t := qat (kA (kat t)).
Definition fDm t := qat (eDm (kat t)).
Definition fX t := qat (eX (kat t)).
Definition fTO t := qat (eTO (kat t)) 0.
Definition fOT t := qat (eOT (kat t)) 0.
Definition fEO t := qat (kEO (kat t)).
Definition fCE t := qat (eCE (kat t)).
Definition fEP t := qat (eEP (kat t)).
Definition fPE t := qat (ePE (kat t)).

Lemma qat_tab r c f i j : i < r -> j < c -> qat (tab r c f) i j = f i j.
Proof. intros Hi Hj. unfold qat, tab. rewrite (nth_mapseq (fun i => map (f i) (seq 0 c))) by auto. now rewrite nth_mapseq. Qed.
Lemma place_nth l i x : NoDup l -> nth_error l i = Some x -> place x l = i.
Proof.
  revert i. induction l as [|y l IH]; intros [|i] N G; try discriminate; cbn in *.
  - injection G as ->. now rewrite Nat.eqb_refl.
  - inversion N; subst. destruct (Nat.eqb_spec y x) as [->|_]; [exfalso; apply H1; eapply nth_error_In; eauto|]. now rewrite (IH i).
Qed.
Lemma coupledb_ok x : coupledb x = true <-> coupled x.
Proof. destruct x as [|b x]; cbn; [tauto|]. apply Nat.eqb_eq. Qed.
Hypothesis Inst : kc_instance T D P W R reward caps.
Hypothesis HP : 0 < P.
Lemma computed_teams : team_messages T D P W R reward caps flag alpha fA fDm fX fTO fOT fEO fCE fEP fPE.
Proof.
  split; [|split].
  - intros d x Hd Tp. pose proof (kc_wide _ _ _ _ _ _ _ Inst d x Hd Tp). unfold fA. cbn [kat kA]. now rewrite qat_tab.
  - intros p x Hp Hx. unfold fEO. cbn [kat kEO]. now rewrite qat_tab.
  - intro t. split; [|split; [|split; [|split; [|split; [|split]]]]].
    + intros d ws cap Gw Gc i x G. assert (Hd : d < D) by (destruct Inst as ((LW & _) & _); rewrite <- LW; apply nth_error_Some; congruence).
      pose proof (nth_error_nth _ _ [] Gw) as Ew. pose proof (nth_error_nth _ _ 0 Gc) as Ec.
      assert (I : In x (participants T ws)) by exact (nth_error_In _ _ G). unfold participants in I. apply filter_In in I as (I & Nz). apply in_seq in I.
      unfold fDm, eDm. rewrite qat_tab by (auto; lia). cbv zeta. unfold takes_part. rewrite Ew, Ec, Nz.
      assert (Nd : NoDup (participants T ws)) by (unfold participants; apply NoDup_filter, seq_NoDup).
      rewrite (place_nth _ i x Nd G). unfold fA.
      assert (Li : i < length (participants T ws)) by (apply nth_error_Some; congruence).
      apply brute_finite; [intro c; apply Nat.leb_le|now rewrite map_length|]. intros [|].
      * exists (map (Nat.eqb x) (participants T ws)). rewrite !map_length. split; [reflexivity|]. split; [|rewrite (map_nth_error _ _ _ G), Nat.eqb_refl; reflexivity].
        unfold within. rewrite (weight_load (fun x => nth x ws 0)). rewrite load_filter. 
        rewrite (filter_one x); [|exact Nd|exact (nth_error_In _ _ G)|intros b _; apply Nat.eqb_eq].
        cbn [map]. rewrite sum_cons. cbn. rewrite Nat.add_0_r. destruct Inst as (_ & _ & _ & _ & _ & Hfit & _). specialize (Hfit d ws cap Gw Gc).
        rewrite Forall_forall in Hfit. destruct (Nat.lt_ge_cases x (length ws)) as [Lx|Lx]; [apply Hfit, nth_In, Lx|rewrite nth_overflow by auto; lia].
      * apply (all_false (length (participants T ws))); [now rewrite map_length| |exact Li]. unfold within. rewrite P_Knapsack.weight_zero. lia.
    + intros d x Hd Hx Tp. unfold fDm, eDm. rewrite qat_tab by auto. cbv zeta. now rewrite Tp.
    + intros d x Hd Hx. induction t as [|t IH].
      * rewrite filtered_0. unfold fX, eX. cbv zeta. rewrite qat_tab by auto. cbn [kat kF]. rewrite qat_tab by auto. unfold fDm. cbn [kat]. ring.
      * rewrite filtered_S, <- IH. unfold fX at 1, eX. cbv zeta. rewrite qat_tab by auto. reflexivity.
    + intros x Hx. unfold fTO, eTO. cbv zeta. rewrite qat_tab by (auto; lia). reflexivity.
    + intros p x Hp Hx. split; [|split; [|split]].
      * unfold fCE, eCE. cbv zeta. rewrite qat_tab by auto. fold (fTO t). fold (fEO t).
        assert (L : length (fTO t x :: map (fun p => fEO t p x) (seq 0 P)) = S P) by (cbn [length]; now rewrite map_length, seq_length).
        apply brute_finite; [apply coupledb_ok|lia|]. intros [|].
        -- exists (true :: map (Nat.eqb p) (seq 0 P)). cbn [length]. rewrite !map_length. split; [reflexivity|]. split; [now apply ones_one|].
           cbn [nth_error]. rewrite (map_nth_error _ _ _ (nth_error_seq_lt P p Hp)), Nat.eqb_refl. reflexivity.
        -- apply (all_false (S P)); [exact L|apply ones_repeat|lia].
      * unfold fEP, eEP. cbv zeta. now rewrite qat_tab.
      * unfold fPE, ePE. cbv zeta. rewrite qat_tab by auto. fold (fEP t).
        apply brute_finite; [intro c; apply Nat.leb_le|now rewrite map_length, seq_length|]. intros [|].
        -- exists (map (Nat.eqb x) (seq 0 T)). rewrite !map_length. split; [reflexivity|]. split; [apply ones_hot, seq_NoDup|].
           rewrite (map_nth_error _ _ _ (nth_error_seq_lt T x Hx)), Nat.eqb_refl. reflexivity.
        -- apply (all_false T); [now rewrite map_length, seq_length|unfold at_most_one; rewrite ones_repeat; lia|exact Hx].
      * rewrite Nat.add_1_r. unfold fEO. cbn [kat]. unfold kstep. cbn [kEO]. unfold eEO. cbv zeta. now rewrite qat_tab.
    + intros x Hx. exists (Fin (number (brute_message coupledb (fTO t x :: map (fun p => fEO (t + 1) p x) (seq 0 P)) 0))).
      assert (L : length (fTO t x :: map (fun p => fEO (t + 1) p x) (seq 0 P)) = S P) by (cbn [length]; now rewrite map_length, seq_length).
      assert (B : minsum_message coupled (fTO t x :: map (fun p => fEO (t + 1) p x) (seq 0 P)) 0
        (Fin (number (brute_message coupledb (fTO t x :: map (fun p => fEO (t + 1) p x) (seq 0 P)) 0)))).
      { apply brute_finite; [apply coupledb_ok|lia|]. intros [|].
        - exists (true :: map (Nat.eqb 0) (seq 0 P)). cbn [length]. rewrite !map_length. split; [reflexivity|]. split; [now apply ones_one|reflexivity].
        - apply (all_false (S P)); [exact L|apply ones_repeat|lia]. }
      split; [exact B|].
      pose proof (minsum_message_unique _ _ _ _ _ B (brute_ok coupledb coupled (fTO t x :: map (fun p => fEO (t + 1) p x) (seq 0 P)) 0 coupledb_ok ltac:(lia))) as U.
      unfold fOT, eOT. cbv zeta. rewrite qat_tab by (auto; lia). fold (fTO t).
      change (eEO (kat t)) with (kEO (kat (S t))). rewrite <- Nat.add_1_r. fold (fEO (t + 1)). rewrite <- U.
      unfold nmin. destruct (nlt _ _); reflexivity.
    + intros d x Hd Hx Tp. rewrite Nat.add_1_r. unfold fA. cbn [kat]. unfold kstep. cbn [kA]. now rewrite qat_tab.
Qed.
End Computed.

(** The conditions by computation. *)
Definition supportsb (e b a r : Qc) : bool := if qltb b 0 then negb (qltb (r + e) a) else negb (qltb a (r - e)).
Definition beyond (e b : Qc) : bool := qltb b (- e) || qltb e b.
Definition settled_check (T D P : nat) (W : list (list nat)) (e e2 : Qc) (bT bP : list Qc) (Dm1 X0 TO1 TO0 OT0 CE1 CE0 : list (list Qc)) : bool :=
  forallb (fun x => let b := nth x bT 0%Qc in
    beyond e b && qltb (qat OT0 0 x) (zq 1000000) && supportsb e b (qat TO1 0 x) (qat TO0 0 x) && supportsb e2 b (qat TO0 0 x) (qat TO1 0 x)) (seq 0 T) &&
  forallb (fun d => forallb (fun x => negb (takes_part W d x) || supportsb e (nth x bT 0%Qc) (qat Dm1 d x) (qat X0 d x)) (seq 0 T)) (seq 0 D) &&
  forallb (fun p => forallb (fun x => let b := nth (p * T + x) bP 0%Qc in beyond e b && supportsb e b (qat CE1 p x) (qat CE0 p x)) (seq 0 T)) (seq 0 P).
Lemma supportsb_ok e b a r : supportsb e b a r = true -> supports e b a r.
Proof. unfold supportsb, supports. destruct (qltb b 0); intro H; apply negb_true_iff in H; destruct (qltb_spec (r + e) a), (qltb_spec a (r - e)); try discriminate; qlra. Qed.
Lemma beyond_ok e b : beyond e b = true -> (b < - e \/ e < b)%Qc.
Proof. unfold beyond. intro H. apply orb_prop in H as [H|H]; apply qltb_true in H; auto. Qed.
Lemma settled_check_ok T D P W R reward caps flag alpha e e2 s bT bP :
  kc_instance T D P W R reward caps ->
  (let u := kat T D P W R reward caps flag alpha s in let u1 := kstep T D P W R reward caps flag alpha u in
   settled_check T D P W e e2 bT bP (eDm T D W caps u1) (eX T D W caps flag alpha u)
     (eTO T D W reward caps flag alpha u1) (eTO T D W reward caps flag alpha u) (eOT T D P W R reward caps flag alpha u)
     (eCE T D P W reward caps flag alpha u1) (eCE T D P W reward caps flag alpha u)) = true ->
  teams_settled T D P W e e2 s bT bP (fDm T D P W R reward caps flag alpha) (fX T D P W R reward caps flag alpha)
    (fTO T D P W R reward caps flag alpha) (fOT T D P W R reward caps flag alpha) (fCE T D P W R reward caps flag alpha).
Proof.
  cbv zeta. intros Inst H. apply andb_prop in H as (H & H3). apply andb_prop in H as (H1 & H2). rewrite forallb_forall in H1, H2, H3.
  assert (N : forall x n, x < n -> In x (seq 0 n)) by (intros; apply in_seq; lia).
  unfold teams_settled, fDm, fX, fTO, fOT, fCE. rewrite Nat.add_1_r. cbn [kat]. split; [|split].
  - intros x Hx. specialize (H1 x (N _ _ Hx)). cbv zeta in H1 |- *. apply andb_prop in H1 as (H1 & A4). apply andb_prop in H1 as (H1 & A3). apply andb_prop in H1 as (A1 & A2).
    split; [now apply beyond_ok|]. split; [now apply qltb_true in A2|]. split; now apply supportsb_ok.
  - intros d x Hd Tp. specialize (H2 d (N _ _ Hd)). rewrite forallb_forall in H2. specialize (H2 x (N _ _ (kc_wide _ _ _ _ _ _ _ Inst d x Hd Tp))).
    rewrite Tp in H2. now apply supportsb_ok.
  - intros p x Hp Hx. specialize (H3 p (N _ _ Hp)). rewrite forallb_forall in H3. specialize (H3 x (N _ _ Hx)). cbv zeta in H3 |- *.
    apply andb_prop in H3 as (A1 & A2). split; [now apply beyond_ok|now apply supportsb_ok].
Qed.

(** ** Examples *)

(** Four teams, one of them in both departments, weights 2 and 1 in the first; filtering with 1/2, four
    iterations.  The messages still move by more than 1, yet the decisions are settled. *)
Definition k79_w := [[2; 1; 1; 0]; [0; 0; 1; 1]].
Definition k79_r := [[zq 4; 0; zq (-4); zq (-1)]; [zq 2; 1; 0; 1]; [zq (-1); zq (-2); zq 2; zq (-3)]]%Qc.
Definition k79_reward := [zq (-9); zq (-8); zq (-8); zq (-7)]%Qc.
Lemma k79_instance : kc_instance 4 2 3 k79_w k79_r k79_reward [2; 1].
Proof.
  split; [split; [reflexivity|repeat constructor]|]. split; [split; [reflexivity|repeat constructor]|]. split; [reflexivity|]. split; [reflexivity|].
  split; [|split].
  - intros [|[|d]] ws H; cbn in H; [injection H as <-..|destruct d; discriminate]; [exists 0, 2|exists 2, 1]; split; auto.
  - intros [|[|d]] ws cap H H'; cbn in H, H'; [injection H as <-; injection H' as <-; repeat constructor..|destruct d; discriminate].
  - intros d1 d2 d3 t H1 H2. lia.
Qed.
Definition half := Q2Qc (1 # 2).
Definition values79 (l : list num) : list Qc := map number l.
Definition fin79 (v : num) : bool := match v with Fin _ => true | _ => false end.
Lemma fin_back l : forallb fin79 l = true -> l = map Fin (values79 l).
Proof.
  unfold values79. induction l as [|v l IH]; [reflexivity|]. cbn. intro H. apply andb_prop in H as (H1 & H2). rewrite <- IH by auto. now destruct v.
Qed.
Definition seen79 (r : option (list num * list num * list num)) (check : list Qc -> list Qc -> bool) : bool :=
  match r with
  | Some (x, i, p) => forallb fin79 x && forallb fin79 i && forallb fin79 p && check (values79 i) (values79 p)
  | None => false
  end.
Lemma seen79_ok r check : seen79 r check = true -> exists x i p : list Qc, r = Some (map Fin x, map Fin i, map Fin p) /\ check i p = true.
Proof.
  destruct r as [((x, i), p)|]; [|discriminate]. cbn. intro H. apply andb_prop in H as (H & C). apply andb_prop in H as (H & F3). apply andb_prop in H as (F1 & F2).
  exists (values79 x), (values79 i), (values79 p). split; [|exact C]. rewrite <- (fin_back x F1), <- (fin_back i F2), <- (fin_back p F3). reflexivity.
Qed.
Definition negatives (l : list Qc) : list nat := filter (fun i => qltb (nth i l 0%Qc) 0) (seq 0 (length l)).
Lemma listed T P F (pairs : list Qc) : NoDup (map fst F) -> (forall p x, In (p, x) F -> p < P /\ x < T) -> length pairs = P * T ->
  (forall p x, p < P -> x < T -> (In (p, x) F <-> (nth (p * T + x) pairs 0 < 0)%Qc)) ->
  Permutation F (map (fun i => (i / T, i mod T)) (negatives pairs)).
Proof.
  intros N B L V. apply NoDup_Permutation; [exact (NoDup_map_inv _ _ N)| |].
  - apply NoDup_map; [|unfold negatives; apply NoDup_filter, seq_NoDup]. intros i j Ii Ij Q. injection Q as Q1 Q2.
    unfold negatives in Ii. apply filter_In in Ii as (Ii & _). apply in_seq in Ii. assert (T <> 0) by nia.
    rewrite (Nat.div_mod i T), (Nat.div_mod j T) by auto. congruence.
  - intros (p, x). rewrite in_map_iff. split.
    + intro I. destruct (B p x I) as (Hp & Hx). exists (p * T + x). split.
      * rewrite Nat.div_add_l, Nat.div_small by lia. rewrite (Nat.add_comm (p * T) x), Nat.mod_add, Nat.mod_small by lia. f_equal. lia.
      * unfold negatives. apply filter_In. rewrite in_seq, qltb_true. split; [nia|]. now apply V.
    + intros (i & Q & I). unfold negatives in I. apply filter_In in I as (I & Hn). apply in_seq in I. apply qltb_true in Hn.
      assert (Tz : T <> 0) by nia. injection Q as <- <-.
      assert (Hx : i mod T < T) by now apply Nat.mod_upper_bound. assert (Hp : i / T < P) by (apply Nat.div_lt_upper_bound; lia).
      apply V; auto. rewrite (Nat.mul_comm (i / T)), <- Nat.div_mod; auto.
Qed.
Definition check79 (T D P : nat) W R reward caps flag alpha e e2 s (teams pairs : list nat) (bT bP : list Qc) : bool :=
  (let u := kat T D P W R reward caps flag alpha s in let u1 := kstep T D P W R reward caps flag alpha u in
   settled_check T D P W e e2 bT bP (eDm T D W caps u1) (eX T D W caps flag alpha u)
     (eTO T D W reward caps flag alpha u1) (eTO T D W reward caps flag alpha u) (eOT T D P W R reward caps flag alpha u)
     (eCE T D P W reward caps flag alpha u1) (eCE T D P W reward caps flag alpha u)) &&
  (if list_eq_dec Nat.eq_dec (negatives bT) teams then true else false) && (if list_eq_dec Nat.eq_dec (negatives bP) pairs then true else false).
Example C79_example :
  exists (ext intr pairs : list Qc) A Dm X TO OT EO CE EP PE F,
    package_kc 4 2 3 k79_w (inj k79_r) (map Fin k79_reward) [2; 1] 4 true (Fin half) = Some (map Fin ext, map Fin intr, map Fin pairs) /\
    team_messages 4 2 3 k79_w k79_r k79_reward [2; 1] true half A Dm X TO OT EO CE EP PE /\
    teams_settled 4 2 3 k79_w (Q2Qc (5 # 16)) (Q2Qc (39 # 32)) 3 intr pairs Dm X TO OT CE /\
    Permutation F [(0, 2); (2, 1)] /\
    X 3 0 0 = Q2Qc (103 # 8) /\ X 3 1 3 = Q2Qc (161 # 16) /\
    selection 4 2 3 k79_w [2; 1] F /\
    not_improved 4 2 3 k79_w [2; 1] k79_r k79_reward (X 3) (zq 3 * Q2Qc (5 # 16) + zq 5 * Q2Qc (39 # 32)) F.
Proof.
  destruct (seen79_ok (package_kc 4 2 3 k79_w (inj k79_r) (map Fin k79_reward) [2; 1] 4 true (Fin half))
    (check79 4 2 3 k79_w k79_r k79_reward [2; 1] true half (Q2Qc (5 # 16)) (Q2Qc (39 # 32)) 3 [1; 2] [2; 9])) as (ext & intr & pairs & Ep & C).
  { vm_compute. reflexivity. }
  apply andb_prop in C as (C & C2). apply andb_prop in C as (C & C1).
  destruct (list_eq_dec Nat.eq_dec (negatives intr) [1; 2]) as [_|]; [|discriminate].
  destruct (list_eq_dec Nat.eq_dec (negatives pairs) [2; 9]) as [N|]; [|discriminate]. clear C1 C2.
  pose proof (settled_check_ok _ _ _ _ _ _ _ _ _ _ _ _ _ _ k79_instance C) as S. clear C.
  pose proof (computed_teams 4 2 3 k79_w k79_r k79_reward [2; 1] true half k79_instance ltac:(lia)) as M.
  destruct (C79_selection 4 2 3 k79_w k79_r k79_reward [2; 1] 4 true half (Q2Qc (5 # 16)) (Q2Qc (39 # 32)) ext intr pairs _ _ _ _ _ _ _ _ _
    k79_instance ltac:(lia) ltac:(lia) Ep M) as (F & SF & Vp & _ & Op); [discriminate|discriminate|exact S|].
  exists ext, intr, pairs. do 9 eexists. exists F. split; [exact Ep|]. split; [exact M|]. split; [exact S|].
  assert (Lp : length pairs = 12).
  { destruct (package_messages 4 2 3 k79_w k79_r k79_reward [2; 1] 4 true half k79_instance ltac:(lia)) as (x0 & p0 & A0 & D0 & X0 & T0 & O0 & E0 & C0 & P0 & Q0 & E1 & _ & L & _).
    rewrite Ep in E1. injection E1 as _ _ E1. apply fin_inj in E1. now subst. }
  split.
  { pose proof (listed 4 3 F pairs (proj1 SF) (proj1 (proj2 (proj2 SF))) Lp Vp) as Q. rewrite N in Q. exact Q. }
  split; [apply Qc_is_canon; vm_compute; reflexivity|]. split; [apply Qc_is_canon; vm_compute; reflexivity|]. split; [exact SF|exact Op].
Qed.

(** A call with one department of capacity 2, two teams of one member and one of two, without filtering. *)
Definition c79_teams : list team := [(1, 1, 1); (1, 1, 1); (1, 1, 3)].
Definition c79_rt := [zq (-3); zq (-1); zq (-6)]%Qc.
Definition c79_rp := [[zq (-1); zq (-1)]; [zq 2; zq (-2)]; [0; zq 2]]%Qc.
Example C79_call_example :
  exists o a X F,
    kc_initialize [2] [1; 3] = Some o /\ o_weights o = [[1; 1; 2]] /\
    kc_call 4 false n0 n0 true 1 [2] [1; 3] (map Fin c79_rt) (inj c79_rp) = Some a /\
    Permutation (p_pairs (a_pre a)) F /\
    Permutation F [(0, 0); (1, 1)] /\
    selection 3 1 2 [[1; 1; 2]] [2] F /\
    map (X 0) [0; 1; 2] = [zq 2; zq 1; zq 7] /\
    not_improved 3 1 2 [[1; 1; 2]] [2] (columns 2 c79_rp) c79_rt X 0 F.
Proof.
  destruct (kc_initialize [2] [1; 3]) as [o|] eqn:E; [|vm_compute in E; discriminate].
  assert (Eo : o_combos o = [(1, 1)] /\ o_weights o = [[1; 1; 2]]) by (vm_compute in E; injection E as <-; auto). destruct Eo as (Eo & Ew).
  assert (Hg : generated [2] [1; 3] (o_combos o) c79_teams).
  { rewrite Eo. exists (count_fn [2]). split; [|vm_compute; reflexivity].
    intros b Hb. apply count_ok. cbn in Hb. unfold in_range. repeat (destruct Hb as [<- |Hb]; [cbn; lia|]). destruct Hb. }
  assert (Hroom : room [2] [1; 3] (o_combos o)).
  { rewrite Eo. intros b Hb. cbn in Hb. unfold sensible, fits.
    repeat (destruct Hb as [<- |Hb]; [cbn; intros S d Hd; assert (d = 1) as -> by lia; cbn; lia|]). destruct Hb. }
  assert (Inst : kc_instance 3 1 2 [[1; 1; 2]] (columns 2 c79_rp) c79_rt [2]).
  { rewrite <- Ew. refine (proj1 (call_instance [2] [1; 3] o c79_teams 2 c79_rt c79_rp _ _ E Hroom Hg _ _));
    [repeat constructor|discriminate|reflexivity|split; [reflexivity|repeat constructor]]. }
  destruct (seen79_ok (package_kc 3 1 2 [[1; 1; 2]] (inj (columns 2 c79_rp)) (map Fin c79_rt) [2] 4 false n0)
    (check79 3 1 2 [[1; 1; 2]] (columns 2 c79_rp) c79_rt [2] false 0 0 0 3 [0; 1] [0; 4])) as (ext & intr & pairs & Ep & C).
  { vm_compute. reflexivity. }
  apply andb_prop in C as (C & C2). apply andb_prop in C as (C & C1).
  destruct (list_eq_dec Nat.eq_dec (negatives intr) [0; 1]) as [_|]; [|discriminate].
  destruct (list_eq_dec Nat.eq_dec (negatives pairs) [0; 4]) as [N|]; [|discriminate]. clear C1 C2.
  pose proof (settled_check_ok _ _ _ _ _ _ _ _ _ _ _ _ _ _ Inst C) as S. clear C.
  pose proof (computed_teams 3 1 2 [[1; 1; 2]] (columns 2 c79_rp) c79_rt [2] false 0 Inst ltac:(lia)) as M.
  assert (Z0 : (0 <= 0)%Qc) by apply Qcle_refl.
  assert (Lp : length pairs = 6).
  { destruct (package_messages 3 1 2 [[1; 1; 2]] (columns 2 c79_rp) c79_rt [2] 4 false 0 Inst ltac:(lia)) as (x0 & p0 & A0 & D0 & X0 & T0 & O0 & E0 & C0 & P0 & Q0 & E1 & _ & L & _).
    change (Fin 0) with n0 in E1; rewrite Ep in E1. injection E1 as _ _ E1. apply fin_inj in E1. now subst. }
  destruct (C79_call 4 false 0 0 0 0 true 1 [2] [1; 3] c79_rt c79_rp 2 o c79_teams ext intr pairs
    (fA 3 1 2 [[1; 1; 2]] (columns 2 c79_rp) c79_rt [2] false 0) (fDm 3 1 2 [[1; 1; 2]] (columns 2 c79_rp) c79_rt [2] false 0)
    (fX 3 1 2 [[1; 1; 2]] (columns 2 c79_rp) c79_rt [2] false 0) (fTO 3 1 2 [[1; 1; 2]] (columns 2 c79_rp) c79_rt [2] false 0)
    (fOT 3 1 2 [[1; 1; 2]] (columns 2 c79_rp) c79_rt [2] false 0) (fEO 3 1 2 [[1; 1; 2]] (columns 2 c79_rp) c79_rt [2] false 0)
    (fCE 3 1 2 [[1; 1; 2]] (columns 2 c79_rp) c79_rt [2] false 0) (fEP 3 1 2 [[1; 1; 2]] (columns 2 c79_rp) c79_rt [2] false 0)
    (fPE 3 1 2 [[1; 1; 2]] (columns 2 c79_rp) c79_rt [2] false 0)) as (F & a & Ea & SF & Vp & Op & Pa & _); auto.
  - repeat constructor.
  - discriminate.
  - split; [reflexivity|repeat constructor].
  - rewrite Ew. exact Ep.
  - rewrite Ew. exact M.
  - rewrite Ew. exact S.
  - rewrite Ew in *. exists o, a, (fX 3 1 2 [[1; 1; 2]] (columns 2 c79_rp) c79_rt [2] false 0 3), F.
    split; [reflexivity|]. split; [exact Ew|]. split; [exact Ea|]. split; [exact Pa|]. split; [|split; [exact SF|split; [|exact Op]]].
    + pose proof (listed 3 2 F pairs (proj1 SF) (proj1 (proj2 (proj2 SF))) Lp Vp) as Q. rewrite N in Q. exact Q.
    + unfold fX. cbn [map]. repeat (f_equal; [apply Qc_is_canon; vm_compute; reflexivity|]). reflexivity.
Qed.

Print Assumptions C79_selection.
Print Assumptions C79_call.
Print Assumptions C79_example.
Print Assumptions C79_call_example.
