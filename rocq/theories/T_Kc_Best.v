(** * Property C70: KC-MWM finds the best selection when scarce departments count teams. *)
From Coq Require Import Permutation.
From Verif Require Import Num NumFacts Arr ArrFacts Spec SpecRun SpecGraph SpecCover SpecSelection MinSum MinSumFacts.
From Verif Require Import M_InOut P_InOut T_InOut M_Runs P_Runs T_Schedule P_Ksat P_PyRef_Ksat T_PyRef_Run.
From Verif Require Import P_Assign P_Tsp_Assign P_Ksat_Limit P_Kc_Dual P_Kc_Messages P_Kc_Best T_Tsp_Assign.
From Verif Require Import M_Kc_Py SpecKc P_Kc_Gen P_Kc_Post P_Kc_Results P_Kc_Call T_Kc_Py.
Local Open Scope nat_scope.

Lemma qn_cancel c x y : (0 < c -> c * x <= c * y -> x <= y)%Qc.
Proof.
  intros Hc H. destruct (Qclt_le_dec y x) as [L|L]; [|exact L]. exfalso.
  pose proof (Qcmult_lt_compat_r _ _ c Hc L) as Y. rewrite !(Qcmult_comm _ c) in Y. qlra.
Qed.

(** Departments whose capacity is too small for all their teams must give the same weight to all their
    teams, and no team is in two such departments; rewards are at least -1000000.  If a selection is
    cheaper than every other one by [eps], then after the stated number of iterations, for every
    filter factor below 1, the intrinsic values of its pairs are negative and those of all others
    positive; likewise for the teams. *)
Theorem C70_best_selection :
  forall (iters T D P : nat) (W : list (list nat)) (R : list (list Qc)) (reward : list Qc) (caps : list nat)
         (flag : bool) (alpha : Qc) (F : list (nat * nat)) (B eps : Qc),
    kc_instance T D P W R reward caps -> counting T D W caps ->
    (0 <= alpha)%Qc -> (alpha < 1)%Qc -> (0 < eps)%Qc -> (0 <= B)%Qc ->
    (forall p x, p < P -> x < T -> (- B <= qat R p x /\ qat R p x <= B)%Qc) ->
    (forall x, x < T -> (- B <= nth x reward 0 /\ nth x reward 0 <= B)%Qc) ->
    (forall x, x < T -> (- zq 1000000 <= nth x reward 0)%Qc) ->
    best_by T D P W caps R reward F eps ->
    let N := qn (1 + D + T) in
    (N * (zq 21 * N * B + zq 6 * eps) <= qn iters * ((1 - alpha) * eps))%Qc ->
    exists ext intr pairs,
      package_kc T D P W (inj R) (map Fin reward) caps iters flag (Fin alpha) = Some (map Fin ext, map Fin intr, map Fin pairs) /\
      length intr = T /\ length pairs = P * T /\
      (forall p x, p < P -> x < T ->
         (In (p, x) F -> (N * nth (p * T + x) pairs 0 <= - eps)%Qc) /\
         (~ In (p, x) F -> (eps <= zq 3 * N * nth (p * T + x) pairs 0)%Qc)) /\
      (forall x, x < T ->
         ((exists p, In (p, x) F) -> (N * nth x intr 0 <= - eps)%Qc) /\
         (~ (exists p, In (p, x) F) -> (0 <= nth x intr 0)%Qc)).
Proof.
  intros iters T D P W R reward caps flag alpha F B eps Inst Hcnt Ha0 Ha1 He HB HR Hr Hmil (HF & Hgap) N Hit.
  pose proof Inst as (HWs & HRs & Lr & Lc & Hp & Hfit & Htwo).
  assert (HN : (1 <= N)%Qc) by (unfold N; cbn [Nat.add qn]; pose proof (qn_nonneg (D + T)); qlra).
  set (delta := (eps / N)%Qc).
  assert (Nd : (N * delta = eps)%Qc) by (unfold delta; apply Qcmult_div_r; intros Q; rewrite Q in HN; discriminate HN || qlra).
  assert (Hd : (0 < delta)%Qc).
  { destruct (Qclt_le_dec 0 delta) as [|L]; [auto|]. exfalso.
    pose proof (Qcmult_le_compat_r _ _ N L ltac:(qlra)) as Y. rewrite (Qcmult_comm delta), Nd in Y. qlra. }
  assert (Hneed : forall d x, share W d x <> 0 -> x < T) by (intros d x; eapply Hneed; eauto).
  destruct (prices T D P W caps (pair_cost R reward) F delta eps (B + B)%Qc HF) as
    (a & u & b & Q1 & Q2 & Q3 & Q4 & Q5 & Q6 & Q7 & Q8 & Q9 & Q10 & Q11 & Q12); auto.
  { change (S (D + T)) with (1 + D + T). fold N. rewrite Nd. apply Qcle_refl. }
  { intros p x Hpp Hx. unfold pair_cost. pose proof (HR p x Hpp Hx). pose proof (Hr x Hx). split; qlra. }
  { qlra. }
  set (fr := far T D delta (B + B)) in *.
  assert (Ef : fr = (zq 4 * N * B + eps)%Qc).
  { unfold fr, far. change (S (D + T)) with (1 + D + T). fold N. rewrite <- Nd. change (zq 4) with (1 + 1 + 1 + 1)%Qc. ring. }
  assert (NB : (B <= N * B)%Qc) by (replace B with (1 * B)%Qc at 1 by ring; apply Qcmult_le_compat_r; auto).
  assert (Hf0 : (0 <= fr)%Qc).
  { rewrite Ef. replace (zq 4 * N * B)%Qc with (N * B + N * B + N * B + N * B)%Qc by (change (zq 4) with (1 + 1 + 1 + 1)%Qc; ring). qlra. }
  destruct (C50_kc_run iters T D P W R reward caps flag alpha) as (ext & pairs & K & EO & Dm & X & TO & CE & EP & PE & OT & E & Le & Lp & K0 & EO0 & SE & St & Re & Rp); auto.
  assert (Ni : iters <> 0).
  { intros ->. cbn [qn] in Hit.
    assert (Y : (0 <= N * (zq 21 * N * B))%Qc).
    { replace (N * (zq 21 * N * B))%Qc with ((N * N * zq 21) * B)%Qc by ring.
      rewrite <- (Qcmult_0_l B). apply Qcmult_le_compat_r; [|exact HB].
      rewrite <- (Qcmult_0_l (zq 21)). apply Qcmult_le_compat_r; [|discriminate].
      rewrite <- (Qcmult_0_l N). apply Qcmult_le_compat_r; qlra. }
    assert (Y' : (1 * eps <= N * eps)%Qc) by (apply Qcmult_le_compat_r; qlra).
    replace (N * (zq 21 * N * B + zq 6 * eps))%Qc with (N * (zq 21 * N * B) + (N * eps + N * eps + N * eps + N * eps + N * eps + N * eps))%Qc in Hit
      by (change (zq 6) with (1 + 1 + 1 + 1 + 1 + 1)%Qc; ring).
    qlra. }
  set (k := iters - 1). assert (Ek : iters = S k) by (unfold k; lia).
  set (Z0 := (B + B + B + fr + delta)%Qc).
  assert (Enough : (Z0 <= (qn k + 1) * ((1 - alpha) * third delta))%Qc).
  { apply (qn_cancel (zq 3 * N)%Qc).
    { replace 0%Qc with (zq 3 * 0)%Qc by ring. rewrite !(Qcmult_comm (zq 3)). apply Qcmult_lt_compat_r; [reflexivity|qlra]. }
    replace (zq 3 * N * ((qn k + 1) * ((1 - alpha) * third delta)))%Qc with (qn iters * ((1 - alpha) * eps))%Qc.
    2:{ rewrite Ek. cbn [qn]. rewrite <- Nd. rewrite <- (third_eq delta) at 1. change (zq 3) with (1 + 1 + 1)%Qc. ring. }
    eapply Qcle_trans; [|exact Hit]. unfold Z0. rewrite Ef.
    assert (NNB : (N * B <= N * N * B)%Qc) by (replace (N * N * B)%Qc with (N * (N * B))%Qc by ring;
      rewrite !(Qcmult_comm N (_)); apply Qcmult_le_compat_r; [rewrite (Qcmult_comm B); exact NB|qlra]).
    assert (Ne : (eps <= N * eps)%Qc) by (replace eps with (1 * eps)%Qc at 1 by ring; apply Qcmult_le_compat_r; qlra).
    replace (zq 3 * N * (B + B + B + (zq 4 * N * B + eps) + delta))%Qc with
      (zq 9 * (N * B) + zq 12 * (N * N * B) + zq 3 * (N * eps) + zq 3 * eps)%Qc
      by (rewrite <- Nd; change (zq 9) with (zq 3 * zq 3)%Qc; change (zq 12) with (zq 3 * zq 4)%Qc; change (zq 3) with (1 + 1 + 1)%Qc; ring).
    replace (N * (zq 21 * N * B + zq 6 * eps))%Qc with (zq 21 * (N * N * B) + zq 6 * (N * eps))%Qc by ring.
    clear - NNB Ne. set (x := (N * B)%Qc) in *. set (y := (N * N * B)%Qc) in *. set (z := (N * eps)%Qc) in *.
    assert (A9 : (zq 9 * x <= zq 9 * y)%Qc) by (rewrite !(Qcmult_comm (zq 9)); apply Qcmult_le_compat_r; [exact NNB|discriminate]).
    assert (A3 : (zq 3 * eps <= zq 3 * z)%Qc) by (rewrite !(Qcmult_comm (zq 3)); apply Qcmult_le_compat_r; [exact Ne|discriminate]).
    replace (zq 21 * y + zq 6 * z)%Qc with (zq 9 * y + zq 12 * y + zq 3 * z + zq 3 * z)%Qc
      by (change (zq 21) with (zq 9 + zq 12)%Qc; change (zq 6) with (zq 3 + zq 3)%Qc; ring).
    generalize dependent (zq 9 * x)%Qc. generalize dependent (zq 9 * y)%Qc. intros. qlra. }
  pose proof (third_eq delta) as Te.
  destruct (settled T D P W R reward caps flag alpha F delta) with (K := K) (EO := EO) (Dm := Dm) (X := X) (TO := TO) (CE := CE) (EP := EP)
    (PE := PE) (OT := OT) (a := a) (u := u) (b := b) (Z0 := Z0) (B := B) (fr := fr) (k := k) as (V1 & V2 & V3 & V4); auto.
  { apply Qcle_refl. }
  set (add a b := zip_with Qcplus a b).
  assert (Zf : forall a b, zip_with nadd (map Fin a) (map Fin b) = map Fin (add a b)).
  { intros l. unfold add, zip_with. induction l as [|h l IH]; intros [|v m]; cbn; auto. f_equal. apply IH. }
  assert (Zn : forall a b x, x < length a -> length a = length b -> nth x (add a b) 0%Qc = (nth x a 0 + nth x b 0)%Qc).
  { intros l. unfold add, zip_with. induction l as [|h l IH]; intros [|v m] [|x] L1 L2; cbn in *; try lia; auto. apply IH; lia. }
  assert (Nin : forall v, (v <= - delta)%Qc -> (N * v <= - eps)%Qc).
  { intros v Hv. replace (- eps)%Qc with (N * - delta)%Qc by (rewrite <- Nd; ring). rewrite !(Qcmult_comm N).
    apply Qcmult_le_compat_r; [exact Hv|qlra]. }
  exists ext, (add ext reward), pairs. unfold package_kc. cbn zeta in E. rewrite E. cbn [bind]. rewrite Zf.
  split; [reflexivity|]. split; [unfold add; rewrite zip_with_length; lia|]. split; [exact Lp|].
  assert (Zi : forall p x, p < P -> x < T -> nth (p * T + x) pairs 0%Qc = (qat (CE k) p x + qat (PE k) p x + qat R p x)%Qc).
  { intros p x Hpp Hx. rewrite Rp by auto. destruct (Nat.eqb_spec iters 0); [contradiction|reflexivity]. }
  assert (Zt : forall x, x < T -> nth x (add ext reward) 0%Qc = (nth x (OT k) 0 + P_Kc_Best.place D X k x + nth x reward 0)%Qc).
  { intros x Hx. rewrite Zn by lia. rewrite Re by auto. destruct (Nat.eqb_spec iters 0); [contradiction|reflexivity]. }
  split.
  - intros p x Hpp Hx. rewrite Zi by auto. split.
    + intros I. apply Nin, V1, I.
    + intros I. replace eps with (zq 3 * N * third delta)%Qc
        by (rewrite <- Nd; rewrite <- (third_eq delta) at 2; change (zq 3) with (1 + 1 + 1)%Qc; ring).
      rewrite !(Qcmult_comm (zq 3 * N)%Qc). apply Qcmult_le_compat_r; [apply V2; auto|].
      replace 0%Qc with (zq 3 * 0)%Qc by ring. rewrite !(Qcmult_comm (zq 3)). apply Qcmult_le_compat_r; [qlra|discriminate].
  - intros x Hx. rewrite Zt by auto. split.
    + intros I. apply Nin, V3. apply chosen_in, I.
    + intros I. apply V4; [exact Hx|]. apply not_true_iff_false. intros C. apply I. apply chosen_in, C.
Qed.

(** ** A unique best selection is found eventually *)

(** cheaper than every other selection *)
Definition best (T D P : nat) (W : list (list nat)) (caps : list nat) (R : list (list Qc)) (reward : list Qc)
  (F : list (nat * nat)) : Prop :=
  selection T D P W caps F /\
  forall F', selection T D P W caps F' -> ~ Permutation F' F -> (selection_cost R reward F < selection_cost R reward F')%Qc.

(** selections listed project by project *)
Fixpoint assignments (P T : nat) : list (list (option nat)) :=
  match P with
  | 0 => [[]]
  | S P => flat_map (fun o => map (cons o) (assignments P T)) (None :: map Some (seq 0 T))
  end.
Fixpoint pairs_of (p : nat) (g : list (option nat)) : list (nat * nat) :=
  match g with
  | [] => []
  | Some t :: g => (p, t) :: pairs_of (S p) g
  | None :: g => pairs_of (S p) g
  end.
Definition listed (P : nat) (F : list (nat * nat)) : list (option nat) := map (team_of F) (seq 0 P).
Lemma in_assignments P T g : length g = P -> (forall t, In (Some t) g -> t < T) -> In g (assignments P T).
Proof.
  revert g. induction P as [|P IH]; intros [|o g] L H; try discriminate; [now left|]. injection L as L. cbn [assignments].
  apply in_flat_map. exists o. split.
  - destruct o as [t|]; [right|now left]. apply in_map, in_seq. specialize (H t (or_introl eq_refl)). lia.
  - apply in_map, IH; [exact L|]. intros t I. apply H. now right.
Qed.
Lemma in_pairs_of g p0 p t : In (p, t) (pairs_of p0 g) <-> exists i, nth_error g i = Some (Some t) /\ p = p0 + i.
Proof.
  revert p0. induction g as [|o g IH]; intros p0; cbn [pairs_of].
  - split; [intros []|]. intros ([|i] & E & _); discriminate.
  - assert (A : In (p, t) (pairs_of (S p0) g) <-> exists i, nth_error (o :: g) (S i) = Some (Some t) /\ p = p0 + S i).
    { rewrite IH. split; intros (i & E & Q); exists i; (split; [exact E|lia]). }
    destruct o as [t0|]; cbn [In]; rewrite A; split.
    + intros [Q|(i & E & Q)]; [injection Q as <- <-; exists 0; cbn; split; [reflexivity|lia]|eauto].
    + intros ([|i] & E & Q); [left; cbn in E; injection E as ->; f_equal; lia|right; eauto].
    + intros (i & E & Q). eauto.
    + intros ([|i] & E & Q); [discriminate|eauto].
Qed.
Lemma pairs_of_nodup g p0 : NoDup (pairs_of p0 g).
Proof.
  revert p0. induction g as [|[t|] g IH]; intros p0; cbn [pairs_of]; auto; [constructor|]. constructor; [|apply IH].
  intros I. apply in_pairs_of in I as (i & _ & Q). lia.
Qed.
Lemma listed_perm T D P W caps F : selection T D P W caps F -> Permutation (pairs_of 0 (listed P F)) F.
Proof.
  intros HF. apply NoDup_Permutation; [apply pairs_of_nodup|apply (NoDup_map_inv fst), HF|].
  intros (p, t). rewrite in_pairs_of. unfold listed. split.
  - intros (i & E & ->). rewrite nth_error_map in E. destruct (nth_error (seq 0 P) i) as [j|] eqn:Q; [|discriminate].
    assert (Hi : i < P) by (rewrite <- (seq_length P 0); apply nth_error_Some; congruence).
    rewrite (nth_error_nth' _ 0) in Q by (rewrite seq_length; exact Hi). rewrite seq_nth in Q by exact Hi. injection Q as <-.
    cbn [option_map] in E. injection E as E. apply (team_of_in T D P W caps F HF) in E. exact E.
  - intros I. pose proof (proj1 (proj2 (proj2 HF)) p t I) as (Hp & _). exists p. split; [|reflexivity].
    rewrite nth_error_map, (nth_error_nth' _ 0) by (rewrite seq_length; exact Hp). rewrite seq_nth by exact Hp. cbn [option_map Nat.add].
    f_equal. apply (team_of_in T D P W caps F HF), I.
Qed.
Lemma listed_in T D P W caps F : selection T D P W caps F -> In (listed P F) (assignments P T).
Proof.
  intros HF. apply in_assignments; [unfold listed; now rewrite map_length, seq_length|].
  intros t I. unfold listed in I. apply in_map_iff in I as (p & E & _). apply (team_of_in T D P W caps F HF) in E. apply HF in E. tauto.
Qed.
Lemma sum_perm l l' : Permutation l l' -> list_sum l = list_sum l'.
Proof. induction 1; rewrite ?sum_cons; lia. Qed.
Lemma selection_perm T D P W caps F F' : Permutation F F' -> selection T D P W caps F -> selection T D P W caps F'.
Proof.
  intros H (A & B & C & E). split; [|split; [|split]].
  - eapply Permutation_NoDup; [apply Permutation_map, H|exact A].
  - eapply Permutation_NoDup; [apply Permutation_map, H|exact B].
  - intros p t I. apply C. apply (Permutation_in _ (Permutation_sym H)), I.
  - intros d Hd. specialize (E d Hd). replace (list_sum (map (fun e => share W d (snd e)) F')) with (list_sum (map (fun e => share W d (snd e)) F)); [exact E|].
    apply sum_perm, Permutation_map, H.
Qed.
Lemma selection_cost_perm R reward F F' : Permutation F F' -> selection_cost R reward F = selection_cost R reward F'.
Proof. intros H. apply qsum_perm, Permutation_map, H. Qed.
Fixpoint nodupb (l : list nat) : bool := match l with [] => true | x :: l => negb (existsb (Nat.eqb x) l) && nodupb l end.
Lemma nodupb_ok l : nodupb l = true <-> NoDup l.
Proof.
  induction l as [|x l IH]; cbn [nodupb]; [split; [constructor|reflexivity]|].
  assert (A : existsb (Nat.eqb x) l = true <-> In x l).
  { rewrite existsb_exists. split; [intros (y & I & Q); apply Nat.eqb_eq in Q; now subst|]. intros I. exists x. split; [exact I|apply Nat.eqb_refl]. }
  rewrite andb_true_iff, IH, negb_true_iff, <- not_true_iff_false, A. split; [intros (H1 & H2); now constructor|].
  intros N. inversion N; auto.
Qed.
Definition fitsb (T D : nat) (W : list (list nat)) (caps : list nat) (F : list (nat * nat)) : bool :=
  nodupb (map snd F) && forallb (fun d => list_sum (map (fun e => share W d (snd e)) F) <=? nth d caps 0) (seq 0 D).
Lemma fitsb_selection T D P W caps F : selection T D P W caps F -> fitsb T D W caps F = true.
Proof.
  intros (A & B & C & E). unfold fitsb. rewrite (proj2 (nodupb_ok _) B). cbn [andb].
  apply forallb_forall. intros d I. apply in_seq in I. apply Nat.leb_le, E. lia.
Qed.
Lemma selection_fitsb T D P W caps g : In g (assignments P T) -> fitsb T D W caps (pairs_of 0 g) = true -> selection T D P W caps (pairs_of 0 g).
Proof.
  intros Hg H. apply andb_prop in H as (H1 & H2).
  assert (L : length g = P /\ forall t, In (Some t) g -> t < T).
  { clear H1 H2. revert g Hg. induction P as [|n IH]; intros g Hg; cbn [assignments] in Hg.
    - destruct Hg as [<-|[]]. split; [reflexivity|intros t []].
    - apply in_flat_map in Hg as (o & Ho & Hg). apply in_map_iff in Hg as (g' & <- & Hg). destruct (IH g' Hg) as (L & Ht).
      split; [cbn; lia|]. intros t [->|I]; [|apply Ht, I]. destruct Ho as [Q|Ho]; [discriminate|]. apply in_map_iff in Ho as (t' & Q & Ho).
      injection Q as ->. apply in_seq in Ho. lia. }
  split; [|split; [|split]].
  - generalize 0. clear. induction g as [|[t|] g IH]; intros p0; cbn [pairs_of map]; auto; [constructor|]. constructor; [|apply IH].
    intros I. apply in_map_iff in I as ((p, t') & Q & I). apply in_pairs_of in I as (i & _ & E). cbn in Q. lia.
  - apply nodupb_ok, H1.
  - intros p t I. apply in_pairs_of in I as (i & E & ->). split.
    + assert (i < length g) by (apply nth_error_Some; congruence). lia.
    + apply L. eapply nth_error_In, E.
  - intros d Hd. rewrite forallb_forall in H2. apply Nat.leb_le, H2, in_seq. lia.
Qed.
Lemma best_gap T D P W caps R reward F : best T D P W caps R reward F -> exists eps, (0 < eps)%Qc /\ best_by T D P W caps R reward F eps.
Proof.
  intros (HF & H).
  destruct (gap_exists (fun g => selection_cost R reward (pairs_of 0 g)) (fun g => fitsb T D W caps (pairs_of 0 g) = true /\ g <> listed P F)
    (selection_cost R reward F) (assignments P T)) as (eps & He & G).
  - intros g _. destruct (list_eq_dec (fun a b : option nat => ltac:(decide equality; apply Nat.eq_dec)) g (listed P F)) as [->|N]; [right; tauto|].
    destruct (fitsb T D W caps (pairs_of 0 g)); [left; auto|right; intros (Q & _); discriminate].
  - intros g Ig (Q & N). apply H; [apply selection_fitsb; auto|]. intros Pm. apply N.
    assert (S : selection T D P W caps (pairs_of 0 g)) by (apply selection_fitsb; auto).
    assert (Lg : length g = P).
    { clear - Ig. revert g Ig. induction P as [|n IH]; intros g Ig; cbn [assignments] in Ig; [destruct Ig as [<-|[]]; reflexivity|].
      apply in_flat_map in Ig as (o & _ & Ig). apply in_map_iff in Ig as (g' & <- & Ig). cbn. now rewrite IH. }
    apply list_ext_get; [unfold listed; now rewrite map_length, seq_length|]. intros i Hi. rewrite Lg in Hi. unfold get.
    unfold listed. rewrite nth_error_map, (nth_error_nth' (seq 0 P) 0) by (rewrite seq_length; exact Hi). rewrite seq_nth by exact Hi.
    cbn [option_map Nat.add]. destruct (nth_error g i) as [[t|]|] eqn:E.
    + f_equal. symmetry. apply (team_of_in T D P W caps F HF). apply (Permutation_in _ Pm). apply in_pairs_of. eauto.
    + f_equal. destruct (team_of F i) as [t|] eqn:E'; [|reflexivity]. exfalso. apply (team_of_in T D P W caps F HF) in E'.
      apply (Permutation_in _ (Permutation_sym Pm)) in E'. apply in_pairs_of in E' as (j & Ej & Q'). cbn in Q'. subst j. congruence.
    + exfalso. apply nth_error_None in E. lia.
  - exists eps. split; [exact He|]. split; [exact HF|]. intros F' HF' N.
    rewrite <- (selection_cost_perm R reward _ _ (listed_perm T D P W caps F' HF')). apply G; [eapply listed_in, HF'|]. split.
    + apply (fitsb_selection T D P), (selection_perm T D P W caps F'); [apply Permutation_sym; eapply listed_perm, HF'|exact HF'].
    + intros Q. apply N. eapply Permutation_trans; [apply Permutation_sym; eapply listed_perm, HF'|]. rewrite Q. eapply listed_perm, HF.
Qed.
(** checking a selection by enumeration *)
Definition best_check (T D P : nat) (W : list (list nat)) (caps : list nat) (R : list (list Qc)) (reward : list Qc)
  (g : list (option nat)) (eps : Qc) : bool :=
  forallb (fun g' => negb (fitsb T D W caps (pairs_of 0 g')) ||
    (if list_eq_dec (fun a b : option nat => ltac:(decide equality; apply Nat.eq_dec)) g' g then true else false) ||
    negb (qltb (selection_cost R reward (pairs_of 0 g')) (selection_cost R reward (pairs_of 0 g) + eps))) (assignments P T).
Lemma best_check_ok T D P W caps R reward g eps : In g (assignments P T) -> fitsb T D W caps (pairs_of 0 g) = true ->
  best_check T D P W caps R reward g eps = true -> best_by T D P W caps R reward (pairs_of 0 g) eps.
Proof.
  intros Ig Hg H. split; [apply selection_fitsb; auto|]. intros F' HF' N. unfold best_check in H. rewrite forallb_forall in H.
  specialize (H (listed P F') (listed_in T D P W caps F' HF')).
  assert (S : fitsb T D W caps (pairs_of 0 (listed P F')) = true).
  { apply (fitsb_selection T D P), (selection_perm T D P W caps F'); [apply Permutation_sym; eapply listed_perm, HF'|exact HF']. }
  rewrite S in H. cbn [negb orb] in H. destruct (list_eq_dec _ (listed P F') g) as [Q|_].
  - exfalso. apply N. rewrite <- Q. apply Permutation_sym. eapply listed_perm, HF'.
  - cbn [orb] in H. apply negb_true_iff in H. rewrite (selection_cost_perm R reward _ _ (listed_perm T D P W caps F' HF')) in H.
    destruct (qltb_spec (selection_cost R reward F') (selection_cost R reward (pairs_of 0 g) + eps)); [discriminate|assumption].
Qed.

Lemma table_bound (T P : nat) (R : list (list Qc)) (reward : list Qc) : exists B, (0 <= B)%Qc /\
  (forall p x, p < P -> x < T -> (- B <= qat R p x /\ qat R p x <= B)%Qc) /\
  (forall x, x < T -> (- B <= nth x reward 0 /\ nth x reward 0 <= B)%Qc).
Proof.
  set (l := flat_map (fun x => [nth x reward 0; - nth x reward 0]%Qc) (seq 0 T) ++
    flat_map (fun p => flat_map (fun x => [qat R p x; - qat R p x]%Qc) (seq 0 T)) (seq 0 P)).
  exists (qmax0 l). split; [apply qmax0_nonneg|]. split.
  - intros p x Hp Hx. assert (I : forall y, In y [qat R p x; - qat R p x]%Qc -> In y l).
    { intros y I. apply in_app_iff. right. apply in_flat_map. exists p. split; [apply in_seq; lia|]. apply in_flat_map. exists x. split; [apply in_seq; lia|exact I]. }
    pose proof (qmax0_ge l _ (I _ (or_introl eq_refl))). pose proof (qmax0_ge l _ (I _ (or_intror (or_introl eq_refl)))). qlra.
  - intros x Hx. assert (I : forall y, In y [nth x reward 0; - nth x reward 0]%Qc -> In y l).
    { intros y I. apply in_app_iff. left. apply in_flat_map. exists x. split; [apply in_seq; lia|exact I]. }
    pose proof (qmax0_ge l _ (I _ (or_introl eq_refl))). pose proof (qmax0_ge l _ (I _ (or_intror (or_introl eq_refl)))). qlra.
Qed.
Theorem C70_eventually :
  forall (T D P : nat) (W : list (list nat)) (R : list (list Qc)) (reward : list Qc) (caps : list nat)
         (flag : bool) (alpha : Qc) (F : list (nat * nat)),
    kc_instance T D P W R reward caps -> counting T D W caps ->
    (0 <= alpha)%Qc -> (alpha < 1)%Qc -> (forall x, x < T -> (- zq 1000000 <= nth x reward 0)%Qc) ->
    best T D P W caps R reward F ->
    exists enough, forall iters, enough <= iters -> exists ext intr pairs,
      package_kc T D P W (inj R) (map Fin reward) caps iters flag (Fin alpha) = Some (map Fin ext, map Fin intr, map Fin pairs) /\
      (forall p x, p < P -> x < T -> In (p, x) F <-> (nth (p * T + x) pairs 0 < 0)%Qc) /\
      (forall x, x < T -> (exists p, In (p, x) F) <-> (nth x intr 0 < 0)%Qc).
Proof.
  intros T D P W R reward caps flag alpha F Inst Hcnt Ha0 Ha1 Hmil Hb.
  destruct (best_gap T D P W caps R reward F Hb) as (eps & He & Hg). destruct (table_bound T P R reward) as (B & HB & HR & Hr).
  assert (Hy : (0 < (1 - alpha) * eps)%Qc).
  { rewrite <- (Qcmult_0_l eps). apply Qcmult_lt_compat_r; [exact He|qlra]. }
  set (N := qn (1 + D + T)). assert (HN : (0 < N)%Qc) by (apply qn_pos; lia).
  destruct (qn_above_mul (N * (zq 21 * N * B + zq 6 * eps))%Qc _ Hy) as (T0 & H0). exists T0. intros iters Hi.
  destruct (C70_best_selection iters T D P W R reward caps flag alpha F B eps) as (ext & intr & pairs & E & L1 & L2 & V1 & V2); auto.
  { apply Qclt_le_weak, H0, Hi. }
  fold N in V1, V2. exists ext, intr, pairs. split; [exact E|].
  assert (Neg : forall v, (N * v <= - eps)%Qc -> (v < 0)%Qc).
  { intros v Hv. destruct (Qclt_le_dec v 0) as [|L]; [auto|]. exfalso.
    pose proof (Qcmult_le_compat_r _ _ N L ltac:(qlra)) as Y. rewrite !(Qcmult_comm _ N) in Y. qlra. }
  assert (Dec : forall p x, {In (p, x) F} + {~ In (p, x) F}).
  { intros p x. apply in_dec. decide equality; apply Nat.eq_dec. }
  split.
  - intros p x Hp Hx. destruct (V1 p x Hp Hx) as (A1 & A2). split; [intros I; apply Neg, A1, I|].
    intros Lt. destruct (Dec p x) as [|No]; [assumption|]. exfalso. specialize (A2 No).
    generalize dependent (nth (p * T + x) pairs 0%Qc). intros v _ Lt A2.
    assert (H3 : (0 <= zq 3 * N)%Qc) by (replace 0%Qc with (0 * N)%Qc by ring; apply Qcmult_le_compat_r; [discriminate|qlra]).
    assert (Y : (v * (zq 3 * N) <= 0 * (zq 3 * N))%Qc) by (apply Qcmult_le_compat_r; [qlra|exact H3]).
    rewrite (Qcmult_comm v) in Y. rewrite Qcmult_0_l in Y.
    qlra.
  - intros x Hx. destruct (V2 x Hx) as (A1 & A2). split; [intros I; apply Neg, A1, I|].
    intros Lt. destruct (P_Kc_Dual.chosen F x) eqn:C; [apply chosen_in, C|]. exfalso.
    assert (No : ~ exists p, In (p, x) F) by (rewrite <- chosen_in; congruence). specialize (A2 No). qlra.
Qed.

(** ** A complete call of the Python package *)
Definition columns (P : nat) (rp : list (list Qc)) : list (list Qc) := map (fun j => map (fun r => nth j r 0%Qc) rp) (seq 0 P).
Lemma call_instance caps types o teams P rt rp : Forall (fun ty => 1 <= ty <= 5) types -> types <> [] ->
  kc_initialize caps types = Some o -> room caps types (o_combos o) -> generated caps types (o_combos o) teams ->
  length rt = length teams -> shape (length teams) P rp ->
  kc_instance (length teams) (length caps) P (o_weights o) (columns P rp) rt caps /\ wf_obj o teams /\ o_caps o = caps /\ 1 <= length caps <= 11.
Proof.
  intros Ht Hne E Hroom Hg Lr Sr. destruct (setup _ _ _ Ht E) as (HD & Ep & Ec & Hr).
  assert (wf : wf_obj o teams) by (rewrite (generated_unique _ _ _ _ Hr Hg); apply setup_wf; auto).
  split; [|auto]. destruct (prune_ok (length caps)) as (cs & Ep' & Pd & _ & _); [lia|]. rewrite Ep in Ep'. injection Ep' as <-.
  assert (Hev : forall d, 1 <= d <= length (o_caps o) -> exists x, In x teams /\ t_u x = d).
  { intros d Hd. rewrite Ec in Hd. destruct types as [|ty types]; [congruence|].
    set (b := (d, d, ty) : team). assert (Hb : In b (blocks (ty :: types) (o_combos o))).
    { apply in_blocks. split; [apply Pd; auto|cbn; auto]. }
    exists b. split; [|reflexivity]. rewrite (generated_unique _ _ _ _ Hr Hg). apply in_flat_map. exists b. split; auto.
    assert (Hs : sensible b) by (left; reflexivity).
    pose proof (team_count_pos caps b (count_fn caps b) (count_ok caps b (Hr b Hb)) Hs (Hroom b Hb Hs)) as Hc.
    destruct (count_fn caps b); [lia|cbn; auto]. }
  split; [rewrite <- Ec; apply wf_shape; auto|]. split.
  { split; [unfold columns; now rewrite map_length, seq_length|]. apply Forall_map, Forall_forall. intros j _. rewrite map_length. apply Sr. }
  split; [exact Lr|]. split; [reflexivity|]. split; [eapply wf_every; eauto|]. split.
  - intros d ws cap. rewrite <- Ec. eapply wf_fits; eauto.
  - intros d1 d2 d3 t H12 H3. rewrite <- Ec in H3. eapply wf_two; eauto.
Qed.
Lemma nodup_two {A} (l m : list A) : NoDup l -> NoDup m -> (forall x, In x l -> In x m -> False) -> NoDup (l ++ m).
Proof.
  induction l as [|a l IH]; intros Hl Hm H; cbn; auto. inversion Hl; subst. constructor.
  - rewrite in_app_iff. intros [I|I]; [auto|]. apply (H a); cbn; auto.
  - apply IH; auto. intros x I1 I2. apply (H x); cbn; auto.
Qed.
Lemma nodup_blocks (n : nat) (f : nat -> nat) : forall k, NoDup (concat (map (fun i => map (pair i) (seq 0 (f i))) (seq k n))).
Proof.
  induction n as [|n IH]; intros k; cbn; [constructor|]. apply nodup_two; auto.
  - apply FinFun.Injective_map_NoDup; [intros x y [= ->]; reflexivity|apply seq_NoDup].
  - intros [a b] I1 I2. apply in_map_iff in I1 as (c & [= <- <-] & _). apply in_concat in I2 as (l & I2 & I3).
    apply in_map_iff in I2 as (j & <- & I2). apply in_map_iff in I3 as (e & [= -> _] & _). apply in_seq in I2. lia.
Qed.
Lemma matching_nodup thr A : NoDup (matching thr A).
Proof. unfold matching. apply NoDup_filter, (nodup_blocks (length A) (fun i => length (nth i A []))). Qed.
Lemma single_use (pairs : list (nat * nat)) p t : NoDup pairs -> (forall p', In (p', t) pairs <-> p' = p) -> uses pairs t = [(p, t)].
Proof.
  intros Hn H. unfold uses.
  assert (N' : NoDup (filter (fun c => snd c =? t) pairs)) by now apply NoDup_filter.
  assert (I : forall c, In c (filter (fun c => snd c =? t) pairs) <-> c = (p, t)).
  { intros [p' t']. rewrite filter_In. cbn [snd]. rewrite Nat.eqb_eq. split.
    - intros [I ->]. apply H in I. now subst.
    - intros [= -> ->]. split; auto. now apply H. }
  destruct (filter _ pairs) as [|c1 [|c2 l]] eqn:E.
  - exfalso. apply (proj2 (I (p, t)) eq_refl).
  - f_equal. apply I. now left.
  - exfalso. assert (c1 = c2) by (transitivity (p, t); [apply I; now left|symmetry; apply I; right; now left]). subst.
    inversion N'. subst. match goal with X : ~ In _ _ |- _ => apply X end. now left.
Qed.
Lemma nth_mapseq {A} (f : nat -> A) n i d : i < n -> nth i (map f (seq 0 n)) d = f i.
Proof.
  intros H. rewrite (nth_indep _ d (f 0)) by (rewrite map_length, seq_length; auto). rewrite map_nth, seq_nth; auto.
Qed.
Lemma fin_inj (a b : list Qc) : map Fin a = map Fin b -> a = b.
Proof. revert b. induction a as [|x a IH]; intros [|y b]; cbn; try discriminate; auto. intros [= -> E]. f_equal. auto. Qed.
Lemma pair_dec (a b : nat * nat) : {a = b} + {a <> b}.
Proof. decide equality; apply Nat.eq_dec. Qed.
Lemma list_sum_perm (f : nat -> nat) l l' : Permutation l l' -> list_sum (map f l) = list_sum (map f l').
Proof. unfold list_sum. induction 1; cbn [map fold_right]; lia. Qed.

(** If the pairs below the threshold are a selection, the call reports exactly its teams, each with its
    project, and repairs nothing. *)
Lemma call_reports iters flag (alpha th : Qc) pp opt caps types (rt : list Qc) (rp : list (list Qc)) P o teams
    (F : list (nat * nat)) (ext : list Qc) intr (pairs : list Qc) :
    Forall (fun ty => 1 <= ty <= 5) types -> types <> [] ->
    kc_initialize caps types = Some o -> room caps types (o_combos o) -> generated caps types (o_combos o) teams ->
    (pp = true -> opt = 1 \/ opt = 2) -> length rt = length teams -> shape (length teams) P rp -> (th <= 0)%Qc ->
    package_kc (length teams) (length caps) P (o_weights o) (inj (columns P rp)) (map Fin rt) caps iters flag (Fin alpha) =
      Some (map Fin ext, intr, map Fin pairs) ->
    selection (length teams) (length caps) P (o_weights o) caps F ->
    (forall p t, p < P -> t < length teams -> (In (p, t) F <-> (nth (p * length teams + t) pairs 0 < th)%Qc)) ->
    exists a,
      kc_call iters flag (Fin alpha) (Fin th) pp opt caps types (map Fin rt) (inj rp) = Some a /\
      Permutation (p_pairs (a_pre a)) F /\
      Permutation (q_sel (a_post a)) (map snd F) /\
      Permutation (a_results a) (map (fun e =>
        {| r_u := u_of teams (snd e); r_v := v_of teams (snd e); r_type := t_type (nth (snd e) teams (0, 0, 0));
           r_teams := [snd e + 1]; r_projects := [fst e + 1] |}) F) /\
      kc_final_exceeded o (a_post a) = Some false.
Proof.
  intros Ht Hne E Hroom Hg Hopt Lr Sr Hth2 EP HF Hp.
  destruct (call_instance _ _ _ _ _ _ _ Ht Hne E Hroom Hg Lr Sr) as (Inst & wf & Ec & HD).
  assert (Hthr : nle (Fin th) n0) by exact Hth2.
  destruct (C53_kc_call iters flag alpha (Fin th) pp opt caps types rt rp P o teams Ht Hne E Hroom Hg Hthr Hopt Lr Sr) as
    (a & ext' & pairs' & Ecall & Eo & Ew & Lx & Li & Hpr & Hsel & Hnd & Hpf & Hpt & Hres & (b & Eb & Hb)).
  exists a. split; [exact Ecall|].
  assert (pairs' = pairs).
  { unfold package_kc in EP. cbn zeta in EP. unfold columns in EP. rewrite <- transpose_inj, Ew in EP. cbn [bind] in EP.
    injection EP as _ _ X. symmetry in X. now apply fin_inj. }
  subst pairs'. pose proof HF as (Nf & Ns & Hrng & Hcap).
  assert (Hin : forall p t, In (p, t) (p_pairs (a_pre a)) <-> In (p, t) F).
  { intros p t. rewrite Hpr. rewrite (Nat.mul_comm (length teams) p). split.
    - intros (Hp1 & Ht1 & Hlt). apply Hp; auto. now apply qltb_true in Hlt.
    - intros I. destruct (Hrng p t I) as [Hp1 Ht1]. split; auto. split; auto. apply qltb_true, Hp; auto. }
  assert (Npairs : NoDup (p_pairs (a_pre a))).
  { destruct (setup _ _ _ Ht E) as (HD' & Ep & Ec' & Hr').
    assert (Et : teams = teams_of caps (blocks types (o_combos o))) by (eapply generated_unique; eauto).
    destruct (call_ok iters flag alpha (Fin th) pp opt caps types rt rp P (o_combos o)) as
      (o' & p & q & ext'' & intr'' & Ecall' & Ei & _ & _ & _ & _ & _ & _ & Hpp & _); auto; try (rewrite <- Et; auto).
    rewrite Ecall in Ecall'. injection Ecall' as ->. cbn [a_pre]. rewrite Hpp. apply matching_nodup. }
  assert (NF : NoDup F) by (eapply NoDup_map_inv; exact Nf).
  assert (PF : Permutation (p_pairs (a_pre a)) F) by (apply NoDup_Permutation; auto; intros [p t]; apply Hin).
  split; [exact PF|].
  assert (Hs : forall t, In t (p_sel (a_pre a)) <-> In t (map snd F)).
  { intros t. rewrite Hsel, in_map_iff. split.
    - intros (p & I). exists (p, t). split; auto. now apply Hin.
    - intros ([p t'] & <- & I). exists p. now apply Hin. }
  assert (Hw : forall sel, Permutation sel (map snd F) -> within_capacity caps teams sel).
  { intros sel Pm d Hd. unfold used. rewrite (list_sum_perm _ _ _ Pm), map_map.
    specialize (Hcap (d - 1) ltac:(lia)). erewrite map_ext_in; [exact Hcap|]. intros [p t] I. cbn [snd].
    destruct (Hrng p t I) as [_ Ht1]. unfold share. rewrite (wf_nth o teams) by (auto; rewrite Ec; lia).
    now replace (d - 1 + 1) with d by lia. }
  assert (Nsel : NoDup (p_sel (a_pre a))).
  { destruct (setup _ _ _ Ht E) as (HD' & Ep & Ec' & Hr').
    assert (Et : teams = teams_of caps (blocks types (o_combos o))) by (eapply generated_unique; eauto).
    destruct (call_ok iters flag alpha (Fin th) pp opt caps types rt rp P (o_combos o)) as
      (o' & p & q & ext'' & intr'' & Ecall' & Ei & _ & _ & _ & _ & _ & _ & _ & _ & Hi & _); auto; try (rewrite <- Et; auto).
    rewrite Ecall in Ecall'. injection Ecall' as ->. cbn [a_pre]. now apply incr_NoDup. }
  assert (PS : Permutation (p_sel (a_pre a)) (map snd F)) by (apply NoDup_Permutation; auto).
  assert (Eq : q_sel (a_post a) = p_sel (a_pre a)).
  { destruct pp; [|auto]. destruct (Hpt eq_refl) as [_ Y]. inversion Y as [|? ? ? C]; auto. exfalso. apply C, Hw, PS. }
  split; [now rewrite Eq|]. split.
  - rewrite Hres, Eq. set (g := fun t : nat => _). eapply Permutation_trans; [apply Permutation_map, PS|]. rewrite map_map.
    apply Permutation_refl'. apply map_ext_in. intros [p t] I. cbn [fst snd]. unfold g, reported.
    rewrite (single_use _ p t Npairs); [reflexivity|]. intros p'. rewrite Hin. split; [|now intros ->]. intros I'.
    assert (Y : (p', t) = (p, t)) by (eapply nodup_key; [exact Ns| | |]; auto). now injection Y.
  - rewrite Eb. f_equal. apply Hb. rewrite Eq. now apply Hw.
Qed.

(** The call of the Python package reports exactly the teams of the best selection, each with its
    project, and repairs nothing. *)
Theorem C70_call :
  forall iters flag (alpha th : Qc) pp opt caps types (rt : list Qc) (rp : list (list Qc)) P o teams
         (F : list (nat * nat)) (B eps : Qc),
    Forall (fun ty => 1 <= ty <= 5) types -> types <> [] ->
    kc_initialize caps types = Some o -> room caps types (o_combos o) -> generated caps types (o_combos o) teams ->
    (pp = true -> opt = 1 \/ opt = 2) -> length rt = length teams -> shape (length teams) P rp ->
    counting (length teams) (length caps) (o_weights o) caps ->
    (0 <= alpha)%Qc -> (alpha < 1)%Qc -> (0 < eps)%Qc -> (0 <= B)%Qc ->
    (forall t p, t < length teams -> p < P -> (- B <= qat rp t p /\ qat rp t p <= B)%Qc) ->
    (forall t, t < length teams -> (- B <= nth t rt 0 /\ nth t rt 0 <= B)%Qc) ->
    (forall t, t < length teams -> (- zq 1000000 <= nth t rt 0)%Qc) ->
    best_by (length teams) (length caps) P (o_weights o) caps (columns P rp) rt F eps ->
    let N := qn (1 + length caps + length teams) in
    (N * (zq 21 * N * B + zq 6 * eps) <= qn iters * ((1 - alpha) * eps))%Qc ->
    (- eps < N * th)%Qc -> (th <= 0)%Qc ->
    exists a,
      kc_call iters flag (Fin alpha) (Fin th) pp opt caps types (map Fin rt) (inj rp) = Some a /\
      Permutation (p_pairs (a_pre a)) F /\
      Permutation (q_sel (a_post a)) (map snd F) /\
      Permutation (a_results a) (map (fun e =>
        {| r_u := u_of teams (snd e); r_v := v_of teams (snd e); r_type := t_type (nth (snd e) teams (0, 0, 0));
           r_teams := [snd e + 1]; r_projects := [fst e + 1] |}) F) /\
      kc_final_exceeded o (a_post a) = Some false.
Proof.
  intros iters flag alpha th pp opt caps types rt rp P o teams F B eps Ht Hne E Hroom Hg Hopt Lr Sr Hcnt Ha0 Ha1 He HB HR Hr Hm Hbest N Hit Hth1 Hth2.
  destruct (call_instance _ _ _ _ _ _ _ Ht Hne E Hroom Hg Lr Sr) as (Inst & wf & Ec & HD).
  destruct (C70_best_selection iters (length teams) (length caps) P (o_weights o) (columns P rp) rt caps flag alpha F B eps) as
    (ext & intr & pairs & EP & _ & Lp & Hp & _); auto.
  { intros p x Hpp Hx. unfold qat, columns. rewrite (nth_mapseq) by auto.
    rewrite (nth_indep _ 0%Qc (nth p [] 0%Qc)) by (rewrite map_length; destruct Sr as [-> _]; auto).
    rewrite map_nth with (f := fun r => nth p r 0%Qc). apply HR; auto. }
  pose proof Hbest as (HF & _). pose proof HF as (_ & _ & Hrng & _).
  assert (HN : (1 <= N)%Qc) by (unfold N; cbn [Nat.add qn]; pose proof (qn_nonneg (length caps + length teams)); qlra).
  eapply call_reports; eauto. intros p t Hp1 Ht1. destruct (Hp p t Hp1 Ht1) as [Y1 Y2]. fold N in Y1, Y2.
  set (v := nth (p * length teams + t) pairs 0%Qc) in *. split.
  - intros I. specialize (Y1 I). destruct (Qclt_le_dec v th) as [|L]; auto. exfalso.
    pose proof (Qcmult_le_compat_r _ _ N L ltac:(qlra)) as Z. rewrite !(Qcmult_comm _ N) in Z. qlra.
  - intros Hlt. destruct (in_dec pair_dec (p, t) F) as [I|I]; auto. exfalso. specialize (Y2 I).
    assert (Z : (zq 3 * N * v <= 0)%Qc).
    { replace 0%Qc with (0 * (zq 3 * N))%Qc by ring. rewrite (Qcmult_comm _ v). apply Qcmult_le_compat_r; [qlra|].
      replace 0%Qc with (0 * N)%Qc by ring. apply Qcmult_le_compat_r; [discriminate|qlra]. }
    qlra.
Qed.

(** ** When departments count teams *)

(** Teams of type 1 take one member of one department, teams of type 3 two. *)
Theorem C70_one_type :
  forall ty caps types o teams, ty = 1 \/ ty = 3 -> Forall (fun x => x = ty) types ->
    kc_initialize caps types = Some o -> room caps types (o_combos o) -> generated caps types (o_combos o) teams ->
    counting (length teams) (length caps) (o_weights o) caps.
Proof.
  intros ty caps types o teams Hty Hall E Hroom Hg.
  assert (Ht : Forall (fun x => 1 <= x <= 5) types) by (eapply Forall_impl; [|exact Hall]; intros x ->; destruct Hty as [->| ->]; lia).
  destruct (setup _ _ _ Ht E) as (HD & Ep & Ec & Hr). pose proof (generated_unique _ _ _ _ Hr Hg) as Et.
  assert (wf : wf_obj o teams) by (rewrite Et; apply setup_wf; auto).
  assert (Ty : forall t, t < length teams -> t_type (nth t teams (0, 0, 0)) = ty).
  { intros t Hx. assert (I : In (nth t teams (0, 0, 0)) teams) by now apply nth_In. rewrite Et in I at 2.
    apply in_flat_map in I as (b & I1 & I2). apply repeat_spec in I2. rewrite I2. unfold blocks in I1.
    apply in_flat_map in I1 as (c & _ & I1). apply in_map_iff in I1 as (x & <- & I1). cbn [t_type snd]. rewrite Forall_forall in Hall. apply Hall. exact I1. }
  assert (Len : forall d, d < length caps -> length (nth d (o_weights o) []) = length teams).
  { intros d Hd. destruct (wf_shape o teams wf) as (L & S). rewrite Forall_forall in S. apply S, nth_In. rewrite L, Ec. exact Hd. }
  assert (Sh : forall d t, d < length caps -> share (o_weights o) d t <> 0 ->
    d + 1 = t_u (nth t teams (0, 0, 0)) /\ share (o_weights o) d t = fst (members ty)).
  { intros d t Hd H. assert (Hx : t < length teams).
    { destruct (Nat.lt_ge_cases t (length teams)) as [|L]; auto. exfalso. apply H. unfold share. rewrite nth_overflow; auto. now rewrite Len. }
    unfold share in *. rewrite (wf_nth o teams) in * by (auto; now rewrite Ec). unfold need in *. rewrite (Ty t Hx) in *.
    assert (Z : snd (members ty) = 0) by (destruct Hty as [->| ->]; reflexivity). rewrite Z in *.
    destruct (Nat.eqb_spec (d + 1) (t_u (nth t teams (0, 0, 0)))) as [Q|Q].
    - split; [exact Q|]. destruct (d + 1 =? _); lia.
    - exfalso. apply H. destruct (d + 1 =? _); lia. }
  split.
  - intros d t t' Hd _ H H'. destruct (Sh d t Hd H) as [_ ->]. destruct (Sh d t' Hd H') as [_ ->]. reflexivity.
  - intros d d' t Hd Hd' _ _ H H'. destruct (Sh d t Hd H) as [A _]. destruct (Sh d' t Hd' H') as [A' _]. lia.
Qed.

(** ** Examples *)

(** Two departments with two teams and room for one each; the cheapest pair (0, 1) is not part of the
    best selection. *)
Definition two_rt := [zq (-2); zq (-1); 0; zq (-1)]%Qc.
Definition two_rp := [[0; 0]; [zq (-2); zq 2]; [0; zq 2]; [zq (-1); 1]]%Qc.
Definition two_teams : list team := [(1, 1, 1); (1, 1, 1); (2, 2, 1); (2, 2, 1)].
Lemma two_best : best_by 4 2 2 [[1; 1; 0; 0]; [0; 0; 1; 1]] [1; 1] (columns 2 two_rp) two_rt [(0, 3); (1, 0)] 1.
Proof. apply (best_check_ok 4 2 2 _ _ _ _ [Some 3; Some 0]); [|vm_compute; reflexivity|vm_compute; reflexivity]. cbn. tauto. Qed.
Lemma below4 (Q : nat -> Prop) : Q 0 -> Q 1 -> Q 2 -> Q 3 -> forall t, t < 4 -> Q t.
Proof. intros A B C E [|[|[|[|t]]]] H; auto. lia. Qed.
Lemma below3 (Q : nat -> Prop) : Q 0 -> Q 1 -> Q 2 -> forall t, t < 3 -> Q t.
Proof. intros A B C [|[|[|t]]] H; auto. lia. Qed.
Lemma below2 (Q : nat -> Prop) : Q 0 -> Q 1 -> forall t, t < 2 -> Q t.
Proof. intros A B [|[|t]] H; auto. lia. Qed.
Example C70_example :
  exists o, kc_initialize [1; 1] [1; 1] = Some o /\ o_weights o = [[1; 1; 0; 0]; [0; 0; 1; 1]] /\
    scarce 4 (o_weights o) [1; 1] 0 /\ scarce 4 (o_weights o) [1; 1] 1 /\
    exists a, kc_call 4200 true (Fin (Q2Qc (1 # 2))) n0 true 1 [1; 1] [1; 1] (map Fin two_rt) (inj two_rp) = Some a /\
      Permutation (p_pairs (a_pre a)) [(0, 3); (1, 0)] /\
      Permutation (a_results a)
        [{| r_u := 2; r_v := 2; r_type := 1; r_teams := [4]; r_projects := [1] |};
         {| r_u := 1; r_v := 1; r_type := 1; r_teams := [1]; r_projects := [2] |}].
Proof.
  eexists. split; [vm_compute; reflexivity|]. cbn [o_weights]. split; [reflexivity|].
  split; [vm_compute; lia|]. split; [vm_compute; lia|].
  destruct (kc_initialize [1; 1] [1; 1]) as [o|] eqn:E; [|vm_compute in E; discriminate].
  assert (Eo : o_combos o = [(1, 1); (1, 2); (2, 2)] /\ o_weights o = [[1; 1; 0; 0]; [0; 0; 1; 1]]) by (vm_compute in E; injection E as <-; auto).
  destruct Eo as (Eo & Ew).
  assert (Hg : generated [1; 1] [1; 1] (o_combos o) two_teams).
  { rewrite Eo. exists (count_fn [1; 1]). split; [|vm_compute; reflexivity].
    intros b Hb. apply count_ok. cbn in Hb. unfold in_range. repeat (destruct Hb as [<- |Hb]; [cbn; lia|]). destruct Hb. }
  assert (Hroom : room [1; 1] [1; 1] (o_combos o)).
  { rewrite Eo. intros b Hb. cbn in Hb. unfold sensible, fits.
    repeat (destruct Hb as [<- |Hb]; [cbn; intros S d Hd; assert (d = 1 \/ d = 2) as [-> | ->] by lia; cbn; lia|]). destruct Hb. }
  destruct (C70_call 4200 true (Q2Qc (1 # 2)) 0 true 1 [1; 1] [1; 1] two_rt two_rp 2 o two_teams [(0, 3); (1, 0)] (zq 2) 1) as
    (a & Ea & P1 & P2 & P3 & _); auto.
  - repeat constructor.
  - discriminate.
  - split; [reflexivity|repeat constructor].
  - apply (C70_one_type 1 [1; 1] [1; 1] o two_teams); auto. 
  - vm_compute; discriminate.
  - reflexivity.
  - reflexivity.
  - vm_compute; discriminate.
  - intros t p Ht Hp; cbn in Ht; revert t Ht; revert p Hp; refine (below2 _ _ _); refine (below4 _ _ _ _ _); split; vm_compute; discriminate.
  - refine (below4 _ _ _ _ _); split; vm_compute; discriminate.
  - refine (below4 _ _ _ _ _); vm_compute; discriminate.
  - rewrite Ew. exact two_best.
  - vm_compute; discriminate.
  - reflexivity.
  - apply Qcle_refl.
  - exists a. split; [exact Ea|]. split; [exact P1|]. exact P3.
Qed.

(** The same without the call: three teams, one in a scarce department of weight 2 and an ample one. *)
Example C70_best_example :
  kc_instance 3 2 2 [[2; 2; 0]; [0; 1; 1]] [[0; 0; 1]; [1; 0; 0]]%Qc [zq (-2); zq (-1); zq (-1)]%Qc [3; 4] /\
  counting 3 2 [[2; 2; 0]; [0; 1; 1]] [3; 4] /\ scarce 3 [[2; 2; 0]; [0; 1; 1]] [3; 4] 0 /\
  best_by 3 2 2 [[2; 2; 0]; [0; 1; 1]] [3; 4] [[0; 0; 1]; [1; 0; 0]]%Qc [zq (-2); zq (-1); zq (-1)]%Qc [(0, 0); (1, 2)] 1 /\
  match package_kc 3 2 2 [[2; 2; 0]; [0; 1; 1]] (inj [[0; 0; 1]; [1; 0; 0]]%Qc) (map Fin [zq (-2); zq (-1); zq (-1)]%Qc) [3; 4] 5 false n0 with
  | Some (_, intr, pairs) => map (fun x => nlt x n0) intr = [true; false; true] /\ map (fun x => nlt x n0) pairs = [true; false; false; false; false; true]
  | None => False
  end.
Proof.
  split; [|split; [|split; [|split]]].
  - split; [split; [reflexivity|repeat constructor]|]. split; [split; [reflexivity|repeat constructor]|]. split; [reflexivity|]. split; [reflexivity|].
    split; [|split].
    + intros [|[|d]] ws H; cbn in H; [injection H as <-..|destruct d; discriminate]; [exists 0, 2|exists 1, 1]; split; auto.
    + intros [|[|d]] ws cap H H'; cbn in H, H'; [injection H as <-; injection H' as <-; repeat constructor..|destruct d; discriminate].
    + intros d1 d2 d3 t H1 H2. lia.
  - assert (Sc : forall d, d < 2 -> scarce 3 [[2; 2; 0]; [0; 1; 1]] [3; 4] d -> d = 0).
    { refine (below2 _ _ _); auto. intros H. vm_compute in H. lia. }
    split.
    + intros d t t' Hd S. rewrite (Sc d Hd S). unfold share. cbn. destruct t as [|[|[|[|t]]]], t' as [|[|[|[|t']]]]; cbn; lia.
    + intros d d' t Hd Hd' S S'. rewrite (Sc d Hd S), (Sc d' Hd' S'). auto.
  - vm_compute. lia.
  - apply (best_check_ok 3 2 2 _ _ _ _ [Some 0; Some 2]); [|vm_compute; reflexivity|vm_compute; reflexivity]. cbn. tauto.
  - vm_compute. split; reflexivity.
Qed.

(** ** Both parts of [counting] are needed *)

(** Three departments with room for one team, three teams in two of them each.  After the stated
    number of iterations all three teams are selected, although no two fit together. *)
Definition ring_w := [[1; 1; 0]; [0; 1; 1]; [1; 0; 1]].
Definition ring_r := [[0; zq 4; zq 4]; [zq 4; 0; zq 4]; [zq 4; zq 4; 0]]%Qc.
Definition ring_reward := [zq (-4); zq (-3); zq (-3)]%Qc.
Theorem C70_shared_team_refuted :
  exists iters (ext intr pairs : list Qc),
    kc_instance 3 3 3 ring_w ring_r ring_reward [1; 1; 1] /\
    (forall d t t', share ring_w d t <> 0 -> share ring_w d t' <> 0 -> share ring_w d t = share ring_w d t') /\
    (forall p x, p < 3 -> x < 3 -> (- zq 4 <= qat ring_r p x /\ qat ring_r p x <= zq 4)%Qc) /\
    (forall x, x < 3 -> (- zq 4 <= nth x ring_reward 0 /\ nth x ring_reward 0 <= zq 4)%Qc) /\
    best_by 3 3 3 ring_w [1; 1; 1] ring_r ring_reward [(0, 0)] 1 /\
    (qn 7 * (zq 21 * qn 7 * zq 4 + zq 6 * 1) <= qn iters * ((1 - 0) * 1))%Qc /\
    package_kc 3 3 3 ring_w (inj ring_r) (map Fin ring_reward) [1; 1; 1] iters false n0 = Some (map Fin ext, map Fin intr, map Fin pairs) /\
    (forall x, x < 3 -> (nth (x * 3 + x) pairs 0 < 0)%Qc /\ (nth x intr 0 < 0)%Qc).
Proof.
  exists (42 * 99), [zq 2; 1; 1]%Qc, [zq (-2); zq (-2); zq (-2)]%Qc, [zq (-2); zq 6; zq 6; zq 6; zq (-2); zq 6; zq 6; zq 6; zq (-2)]%Qc.
  split.
  { split; [split; [reflexivity|repeat constructor]|]. split; [split; [reflexivity|repeat constructor]|]. split; [reflexivity|]. split; [reflexivity|].
    split; [|split].
    - intros [|[|[|d]]] ws H; cbn in H; [injection H as <-..|destruct d; discriminate]; [exists 0, 1|exists 1, 1|exists 0, 1]; split; auto.
    - intros [|[|[|d]]] ws cap H H'; cbn in H, H'; [injection H as <-; injection H' as <-; repeat constructor..|destruct d; discriminate].
    - intros d1 d2 d3 t H1 H2. assert (d1 = 0 /\ d2 = 1 /\ d3 = 2) as (-> & -> & ->) by lia. destruct t as [|[|[|[|t]]]]; cbn; auto. }
  split.
  { intros [|[|[|d]]]; unfold share; cbn; [intros [|[|[|[|t]]]] [|[|[|[|t']]]]; cbn; lia..|destruct d, t; cbn; lia]. }
  split; [intros p x Hp Hx; revert x Hx; revert p Hp; refine (below3 _ _ _ _); refine (below3 _ _ _ _); split; vm_compute; discriminate|].
  split; [refine (below3 _ _ _ _); intros; split; vm_compute; discriminate|].
  split; [apply (best_check_ok 3 3 3 _ _ _ _ [Some 0; None; None]); [cbn; tauto|vm_compute; reflexivity|vm_compute; reflexivity]|].
  split; [vm_compute; discriminate|]. split; [vm_compute; reflexivity|].
  refine (below3 _ _ _ _); split; reflexivity.
Qed.

(** One department with room for two, teams of weight 1, 1 and 2; the first two want the same
    project.  After the stated number of iterations the team missing from the best selection is
    selected and the team of the best selection is not. *)
Definition mixed_w := [[1; 1; 2]].
Definition mixed_r := [[0; 0; zq 4]; [zq 4; zq 4; 0]]%Qc.
Theorem C70_mixed_weights_refuted :
  exists iters (ext intr pairs : list Qc),
    kc_instance 3 1 2 mixed_w mixed_r ring_reward [2] /\
    (forall d d' t, d < 1 -> d' < 1 -> share mixed_w d t <> 0 -> share mixed_w d' t <> 0 -> d = d') /\
    (forall p x, p < 2 -> x < 3 -> (- zq 4 <= qat mixed_r p x /\ qat mixed_r p x <= zq 4)%Qc) /\
    (forall x, x < 3 -> (- zq 4 <= nth x ring_reward 0 /\ nth x ring_reward 0 <= zq 4)%Qc) /\
    best_by 3 1 2 mixed_w [2] mixed_r ring_reward [(0, 0)] 1 /\
    (qn 5 * (zq 21 * qn 5 * zq 4 + zq 6 * 1) <= qn iters * ((1 - 0) * 1))%Qc /\
    package_kc 3 1 2 mixed_w (inj mixed_r) (map Fin ring_reward) [2] iters false n0 = Some (map Fin ext, map Fin intr, map Fin pairs) /\
    (nth 5 pairs 0 < 0)%Qc /\ (nth 2 intr 0 < 0)%Qc /\ nth 0 pairs 0%Qc = 0%Qc /\ nth 0 intr 0%Qc = 0%Qc.
Proof.
  exists (2131), [zq 4; zq 3; 1]%Qc, [0; 0; zq (-2)]%Qc, [0; 0; zq 5; zq 5; zq 5; zq (-2)]%Qc.
  split.
  { split; [split; [reflexivity|repeat constructor]|]. split; [split; [reflexivity|repeat constructor]|]. split; [reflexivity|]. split; [reflexivity|].
    split; [|split].
    - intros [|d] ws H; cbn in H; [injection H as <-|destruct d; discriminate]. exists 0, 1. split; auto.
    - intros [|d] ws cap H H'; cbn in H, H'; [injection H as <-; injection H' as <-; repeat constructor|destruct d; discriminate].
    - intros d1 d2 d3 t H1 H2. lia. }
  split; [intros; lia|].
  split; [intros p x Hp Hx; revert x Hx; revert p Hp; refine (below2 _ _ _); refine (below3 _ _ _ _); split; vm_compute; discriminate|].
  split; [refine (below3 _ _ _ _); intros; split; vm_compute; discriminate|].
  split; [apply (best_check_ok 3 1 2 _ _ _ _ [Some 0; None]); [cbn; tauto|vm_compute; reflexivity|vm_compute; reflexivity]|].
  split; [vm_compute; discriminate|]. split; [vm_compute; reflexivity|].
  repeat split; reflexivity.
Qed.

Print Assumptions C70_best_selection.
Print Assumptions C70_eventually.
Print Assumptions C70_call.
Print Assumptions C70_one_type.
Print Assumptions C70_shared_team_refuted.
Print Assumptions C70_mixed_weights_refuted.
