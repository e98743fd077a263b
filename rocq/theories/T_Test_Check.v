(** * C87: the verdicts of the unit tests *)
From Coq Require Import Qcabs Lqa.
From Verif Require Import Num NumFacts Arr Spec ArrFacts M_PyRef M_Test_Check.
Local Open Scope nat_scope.

(** ** Facts about the numpy functions *)
Lemma abs_fin q : nabs (Fin q) = Fin (Qcabs q).
Proof.
  cbn [nabs]. destruct (qltb_spec q 0); f_equal; symmetry.
  - apply Qcabs_neg. qlra.
  - now apply Qcabs_pos.
Qed.
Definition largest (m : Qc) (l : list Qc) : Prop := In m l /\ forall x, In x l -> (x <= m)%Qc.

Lemma maximum_fin a b : np_maximum (Fin a) (Fin b) = Fin (if qltb a b then b else a).
Proof. unfold np_maximum, nmax. cbn. destruct (qltb a b); reflexivity. Qed.
Lemma np_max_fin l : l <> [] -> exists m, np_max (map Fin l) = Some (Fin m) /\ largest m l.
Proof.
  destruct l as [|a l]; [congruence|]. intros _. cbn [map np_max].
  enough (H : forall l a, exists m, fold_left np_maximum (map Fin l) (Fin a) = Fin m /\ largest m (a :: l)).
  { destruct (H l a) as (m & -> & L). eauto. }
  clear. induction l as [|b l IH]; intro a.
  - exists a. split; [reflexivity|]. split; [now left|]. intros x [<-|[]]. apply Qcle_refl.
  - cbn [map fold_left]. rewrite maximum_fin. destruct (IH (if qltb a b then b else a)) as (m & -> & I & U).
    exists m. split; [reflexivity|]. split.
    + destruct I as [<-|I]; [|now right; right]. destruct (qltb a b); [now right; left | now left].
    + assert (Um := U _ (or_introl eq_refl)). intros x [<-|[<-|I']].
      * destruct (qltb_spec a b); qlra.
      * destruct (qltb_spec a b); qlra.
      * apply U. now right.
Qed.
Lemma np_max_nan l : In NaN l -> np_max l = Some NaN.
Proof.
  destruct l as [|a l]; [contradiction|]. cbn [np_max]. intro I. f_equal.
  assert (N : forall l, fold_left np_maximum l NaN = NaN).
  { clear. induction l as [|b l IH]; auto. }
  revert a I. induction l as [|b l IH]; intros a I.
  - now destruct I as [->|[]].
  - cbn [fold_left]. destruct I as [->|[->|I]].
    + apply N.
    + destruct a; apply N.
    + apply IH. now right.
Qed.
Lemma sub_same a b : length a = length b -> np_sub a b = Some (zip_with nsub a b).
Proof. intro L. unfold np_sub. now rewrite L, Nat.eqb_refl. Qed.
Lemma zip_sub_fin p w : zip_with nsub (map Fin p) (map Fin w) = map Fin (zip_with (fun a b => (a - b)%Qc) p w).
Proof. revert w. induction p as [|a p IH]; intros [|b w]; cbn; auto. f_equal. apply IH. Qed.
Lemma np_div_fin x y : y <> 0%Qc -> np_div (Fin x) (Fin y) = Fin (x / y).
Proof.
  intro N. unfold np_div. replace (neqb (Fin y) n0) with false; auto. symmetry.
  apply not_true_iff_false. intro E. apply N. cbn in E. apply andb_prop in E as [E1 E2].
  apply negb_true_iff in E1, E2. apply qltb_false in E1, E2. now apply Qcle_antisym.
Qed.

Lemma inv_pos s : (0 < s)%Qc -> (0 < / s)%Qc.
Proof. unfold Qclt, Qcinv. cbn [this Q2Qc]. intro H. eapply Qlt_le_trans; [apply Qinv_lt_0_compat, H|]. rewrite (Qred_correct (/ s)). apply Qle_refl. Qed.

Definition tinyq : Qc := Q2Qc (1 # 10 ^ 30).

(** ** Finite arrays *)
Section Verdict.
Variables (rtol atol m : Qc) (p w : list Qc).
Hypotheses (L : length p = length w) (NE : p <> []) (Hm : largest m p) (Nz : (m + tinyq <> 0)%Qc).

(** The test passes exactly when every pair of entries differs by at most [atol] and by at most
    [rtol] times the size of the largest entry of the Python array. *)
Theorem C87_verdict : exists b,
  check_agreement (Fin rtol) (Fin atol) (map Fin p) (map Fin w) = Some b /\
  (b = true <-> forall i, i < length p ->
     (Qcabs (nth i p 0 - nth i w 0) <= atol)%Qc /\
     (Qcabs (nth i p 0 - nth i w 0) <= rtol * Qcabs (m + tinyq))%Qc).
Proof.
  unfold check_agreement. rewrite !map_length, L, Nat.eqb_refl. cbn [negb].
  rewrite sub_same by (now rewrite !map_length). cbn [bind]. rewrite zip_sub_fin, map_map.
  set (d := zip_with (fun a b => (a - b)%Qc) p w).
  rewrite (map_ext (fun x => nabs (Fin x)) (fun x => Fin (Qcabs x))) by (intro; apply abs_fin).
  rewrite <- (map_map Qcabs Fin).
  assert (Ld : length d = length p) by (unfold d; rewrite zip_with_length; lia).
  assert (Nd : map Qcabs d <> []).
  { intro E. apply (f_equal (@length Qc)) in E. rewrite map_length in E. cbn in E. apply NE, length_zero_iff_nil. lia. }
  destruct (np_max_fin _ Nd) as (e & -> & Le). cbn [bind].
  destruct (np_max_fin p NE) as (m' & -> & Lm'). cbn [bind].
  assert (m' = m) as -> by (apply Qcle_antisym; [apply Hm, Lm' | apply Lm', Hm]).
  change (nadd (Fin m) tiny) with (Fin (m + tinyq)). rewrite abs_fin.
  set (s := Qcabs (m + tinyq)).
  assert (Ps : (0 < s)%Qc).
  { unfold s. apply Qcnot_le_lt. intro H. apply Nz. apply Qcabs_null.
    apply Qcle_antisym; auto. apply Qcabs_nonneg. }
  assert (Ns : s <> 0%Qc) by (intro H; rewrite H in Ps; revert Ps; vm_compute; discriminate).
  rewrite map_map, (map_ext (fun x => np_div (Fin x) (Fin s)) (fun x => Fin (x / s))) by (intro; now apply np_div_fin).
  rewrite <- (map_map (fun x => (x / s)%Qc) Fin).
  assert (Nd' : map (fun x => (x / s)%Qc) (map Qcabs d) <> []).
  { intro E. now apply map_eq_nil in E. }
  destruct (np_max_fin _ Nd') as (r & -> & Lr). cbn [bind].
  eexists. split; [reflexivity|].
  assert (Eq : r = (e / s)%Qc).
  { apply Qcle_antisym.
    - destruct Lr as [I _]. apply in_map_iff in I as (x & <- & Ix). apply Le in Ix.
      unfold Qcdiv. apply Qcmult_le_compat_r; auto. apply Qclt_le_weak. now apply inv_pos.
    - apply Lr. apply in_map_iff. exists e. split; auto. apply Le. }
  assert (Div : forall x, (x / s <= rtol <-> x <= rtol * s)%Qc).
  { intro x. split; intro H.
    - replace x with (x / s * s)%Qc by (unfold Qcdiv; now rewrite <- Qcmult_assoc, (Qcmult_comm (/ s)), Qcmult_inv_r, Qcmult_1_r).
      apply Qcmult_le_compat_r; auto. now apply Qclt_le_weak.
    - unfold Qcdiv. replace rtol with (rtol * s * / s)%Qc by (now rewrite <- Qcmult_assoc, Qcmult_inv_r, Qcmult_1_r).
      apply Qcmult_le_compat_r; auto. apply Qclt_le_weak. now apply inv_pos. }
  rewrite negb_true_iff, orb_false_iff. unfold ngt. cbn [nlt]. rewrite !qltb_false, Eq, Div.
  assert (Gd : forall i, i < length p -> nth i (map Qcabs d) 0%Qc = Qcabs (nth i p 0 - nth i w 0)%Qc).
  { intros i Hi. rewrite (nth_indep _ 0%Qc (Qcabs 0%Qc)) by (rewrite map_length; lia). rewrite map_nth. f_equal.
    unfold d. clear -L Hi. revert w i L Hi. induction p as [|a l IH]; intros [|b w'] i L Hi; cbn in *; try lia.
    destruct i; auto. apply IH; lia. }
  split.
  - intros [H1 H2] i Hi. rewrite <- (Gd i ltac:(lia)).
    assert (I : In (nth i (map Qcabs d) 0%Qc) (map Qcabs d)) by (apply nth_In; rewrite map_length; lia).
    apply Le in I. split; eapply Qcle_trans; eauto.
  - intro H. destruct Le as [I _]. apply (In_nth _ _ 0%Qc) in I as (i & Hi & <-). rewrite map_length in Hi.
    rewrite Gd by lia. apply H. lia.
Qed.
End Verdict.

(** ** Special values *)

(** One position at which an array has NaN, or at which both have the same infinity, makes the test
    pass, whatever the other entries are. *)
Theorem C87_nan rtol atol y_pure y_wrapper i a b :
  length y_pure = length y_wrapper ->
  get y_pure i = Some a -> get y_wrapper i = Some b ->
  a = NaN \/ b = NaN \/ a = PInf /\ b = PInf \/ a = NInf /\ b = NInf ->
  check_agreement rtol atol y_pure y_wrapper = Some true.
Proof.
  intros L Ga Gb H. unfold check_agreement. rewrite L, Nat.eqb_refl. cbn [negb].
  rewrite sub_same by auto. cbn [bind].
  assert (I : In NaN (map nabs (zip_with nsub y_pure y_wrapper))).
  { apply in_map_iff. exists NaN. split; auto. replace NaN with (nsub a b).
    - apply nth_error_In with (n := i). now apply get_zip_with.
    - destruct H as [->|[->|[[-> ->]|[-> ->]]]]; auto. now destruct a. }
  rewrite (np_max_nan _ I). cbn [bind].
  assert (Em : exists m, np_max y_pure = Some m) by (destruct y_pure; [now destruct i | cbn; eauto]).
  destruct Em as (m & ->). cbn [bind].
  rewrite np_max_nan; [now destruct atol, rtol|]. apply in_map_iff. exists NaN. auto.
Qed.

Definition tol (n : Z) (k : nat) : Qc := Q2Qc (n # Pos.of_nat 10 ^ Pos.of_nat k).
(** the tolerances of ut_methods_utils.py:21-22 (tsp, ksat) and 26-27 (kc_mwm) *)
Definition rtol_used : Qc := tol 5 2.
Definition atol_used : Qc := tol 1 4.
Definition atol_kc : Qc := tol 1 8.

(** So a test that passes does not show that the arrays agree: a library that returned NaN in one
    place and anything elsewhere would pass. *)
Theorem C87_agree_refuted :
  ~ (forall y_pure y_wrapper, check_agreement (Fin rtol_used) (Fin atol_used) y_pure y_wrapper = Some true ->
     forall i a b, get y_pure i = Some (Fin a) -> get y_wrapper i = Some (Fin b) -> (Qcabs (a - b) <= atol_used)%Qc).
Proof.
  intro H. specialize (H [zn 1; zn 2] [NaN; zn 900]).
  assert (E : check_agreement (Fin rtol_used) (Fin atol_used) [zn 1; zn 2] [NaN; zn 900] = Some true) by (vm_compute; reflexivity).
  specialize (H E 1 (zq 2) (zq 900) eq_refl eq_refl). revert H. vm_compute. congruence.
Qed.

(** ** Forward and backward passes of the knapsack *)

(** arrays whose entries are numbers ([Some]) or [+inf] ([None]) *)
Definition entry (o : option Qc) : num := match o with Some q => Fin q | None => PInf end.
Definition numbers (l : list (option Qc)) : list Qc :=
  flat_map (fun o => match o with Some q => [q] | None => [] end) l.

Lemma not_inf_entries l : np_not_inf (map entry l) = map Fin (numbers l).
Proof.
  unfold np_not_inf, numbers. induction l as [|[q|] l IH]; auto.
  cbn [map filter entry flat_map app]. replace (neqb (Fin q) PInf) with false by reflexivity. cbn [negb]. now rewrite IH.
Qed.
Lemma not_inf_fin l : np_not_inf (map Fin l) = map Fin l.
Proof. unfold np_not_inf. induction l as [|q l IH]; auto. cbn [map filter]. replace (neqb (Fin q) PInf) with false by reflexivity. cbn [negb]. now rewrite IH. Qed.
Lemma nanmax_fin l : l <> [] -> exists m, np_nanmax (map Fin l) = Some (Fin m) /\ largest m l.
Proof.
  intro N. destruct (np_max_fin l N) as (m & E & H). exists m. split; auto. unfold np_nanmax.
  replace (filter (fun x => negb (is_nan x)) (map Fin l)) with (map Fin l).
  - rewrite E. destruct l; [congruence|]. reflexivity.
  - clear. induction l as [|q l IH]; auto. cbn. now rewrite <- IH.
Qed.

(** a pair of arrays that can be compared *)
Definition comparable (f : list (option Qc) * list (option Qc)) : Prop :=
  length (fst f) = length (snd f) /\ length (numbers (fst f)) = length (numbers (snd f)) /\
  numbers (fst f) <> [] /\ forall m, largest m (numbers (fst f)) -> (m + tinyq <> 0)%Qc.
Definition arrays (f : list (option Qc) * list (option Qc)) : list num * list num :=
  (map entry (fst f), map entry (snd f)).
Definition same_numbers (f : list (option Qc) * list (option Qc)) : Prop := numbers (fst f) = numbers (snd f).

Lemma is_zero x : neqb (Fin x) n0 = true <-> x = 0%Qc.
Proof.
  cbn. rewrite andb_true_iff, !negb_true_iff, !qltb_false. split.
  - intros [A B]. now apply Qcle_antisym.
  - intros ->. split; apply Qcle_refl.
Qed.
Lemma any_app l x : py_any (l ++ [x]) = if neqb x n0 then py_any l else n1.
Proof. unfold py_any. rewrite existsb_app. cbn [existsb]. rewrite orb_false_r. destruct (existsb _ l), (neqb x n0); reflexivity. Qed.

Section Passes.
Variables rtol atol : Qc.
Hypotheses (Hr : (0 <= rtol)%Qc /\ (rtol < 1)%Qc) (Ha : (0 <= atol)%Qc /\ (atol < 1)%Qc).

Definition flagged (l : list num) : Prop := py_any l = n1.
Lemma any_cases l : py_any l = n0 \/ py_any l = n1.
Proof. unfold py_any. destruct (existsb _ l); auto. Qed.
Lemma n1_gt t : (0 <= t)%Qc /\ (t < 1)%Qc -> ngt n1 (Fin t) = true.
Proof. intros [_ H]. unfold ngt, n1. cbn [nlt]. now apply qltb_true. Qed.
Lemma n0_gt t : (0 <= t)%Qc /\ (t < 1)%Qc -> ngt n0 (Fin t) = false.
Proof. intros [H _]. unfold ngt, n0. cbn [nlt]. now apply qltb_false. Qed.

Lemma step_ok ma mr failed f : comparable f -> py_any ma = py_any mr ->
  exists e r fl, check_forward_backward_step (Fin rtol) (Fin atol) (ma, mr, failed) (arrays f) =
    Some (ma ++ [e], mr ++ [r], failed ++ [fl]) /\
  py_any (ma ++ [e]) = py_any (mr ++ [r]) /\
  (fl = true <-> flagged ma \/ ~ same_numbers f) /\ (flagged (ma ++ [e]) <-> flagged ma \/ ~ same_numbers f).
Proof.
  destruct f as [u v]. intros (L & Ln & NE & Nz) Eany. cbn [fst snd] in *.
  unfold check_forward_backward_step, arrays. cbn [fst snd]. rewrite !not_inf_entries.
  rewrite sub_same by (now rewrite !map_length). cbn [bind]. rewrite zip_sub_fin, map_map.
  set (d := zip_with (fun a b => (a - b)%Qc) (numbers u) (numbers v)).
  rewrite (map_ext (fun x => nabs (Fin x)) (fun x => Fin (Qcabs x))) by (intro; apply abs_fin).
  rewrite <- (map_map Qcabs Fin), not_inf_fin.
  assert (Nd : map Qcabs d <> []).
  { intro E. apply map_eq_nil in E. apply (f_equal (@length Qc)) in E. unfold d in E. rewrite zip_with_length in E.
    cbn in E. apply NE, length_zero_iff_nil. lia. }
  destruct (nanmax_fin _ Nd) as (e & -> & Le). cbn [bind].
  destruct (np_max_fin _ NE) as (m & -> & Lm). cbn [bind].
  change (nadd (Fin m) tiny) with (Fin (m + tinyq)). rewrite abs_fin.
  assert (Ns : Qcabs (m + tinyq) <> 0%Qc).
  { intro H. apply (Nz m Lm). now apply Qcabs_null. }
  rewrite np_div_fin by auto. rewrite !map_length, L, Nat.eqb_refl. cbn [negb].
  set (s := Qcabs (m + tinyq)) in *.
  assert (Same : e = 0%Qc <-> numbers u = numbers v).
  { assert (Z : e = 0%Qc <-> forall x, In x d -> x = 0%Qc).
    { split.
      - intros E x I. apply Qcabs_null. apply Qcle_antisym; [|apply Qcabs_nonneg]. rewrite <- E. apply Le. now apply in_map.
      - intro H. destruct Le as [I _]. apply in_map_iff in I as (x & <- & Ix). rewrite (H x Ix). apply Qcabs_pos, Qcle_refl. }
    rewrite Z. unfold d. clear -Ln. generalize dependent (numbers v). induction (numbers u) as [|a l IH]; intros [|b l'] Ln; cbn in *; try lia.
    - split; auto. contradiction.
    - split.
      + intro H. f_equal; [|apply IH; auto].
        assert (E := H _ (or_introl eq_refl)). qlra.
      + intro E. injection E as <- E. intros x [<-|I]; [apply Qcplus_opp_r|]. now apply (proj2 (IH l' ltac:(lia)) E). }
  assert (Er : (e / s)%Qc = 0%Qc <-> e = 0%Qc).
  { split.
    - intro H. unfold Qcdiv in H. apply Qcmult_integral in H as [H|H]; auto. exfalso. apply Ns.
      rewrite <- (Qcmult_1_r s), <- (Qcmult_inv_r s Ns) at 1. rewrite H. now rewrite !Qcmult_0_r.
    - intros ->. apply Qcmult_0_l. }
  do 3 eexists. split; [reflexivity|].
  assert (Ez : neqb (Fin (e / s)) n0 = neqb (Fin e) n0).
  { apply eq_true_iff_eq. rewrite !is_zero. apply Er. }
  assert (Ea : py_any (mr ++ [Fin (e / s)]) = py_any (ma ++ [Fin e])).
  { rewrite !any_app, Ez, Eany. reflexivity. }
  assert (F : flagged (ma ++ [Fin e]) <-> flagged ma \/ ~ same_numbers (u, v)).
  { unfold flagged, same_numbers. cbn [fst snd]. rewrite any_app. destruct (neqb (Fin e) n0) eqn:Z.
    - apply is_zero, Same in Z. tauto.
    - assert (numbers u <> numbers v) by (intro E; apply Same, is_zero in E; congruence). tauto. }
  split; auto. split; auto. rewrite <- F. unfold flagged. rewrite Ea.
  destruct (any_cases (ma ++ [Fin e])) as [->| ->].
  - rewrite !n0_gt by auto. cbn. split; discriminate.
  - rewrite !n1_gt by auto. tauto.
Qed.

(** Whatever the tolerances below 1 are, the test passes exactly when the numbers in the two arrays,
    read in order without the infinite entries, are all equal. *)
Theorem C87_passes_verdict files : files <> [] -> Forall comparable files ->
  exists b, check_forward_backward_results (Fin rtol) (Fin atol) (map arrays files) = Some b /\
    (b = true <-> Forall same_numbers files).
Proof.
  intros NE C. unfold check_forward_backward_results.
  enough (H : exists ma mr failed,
    foldM (check_forward_backward_step (Fin rtol) (Fin atol)) (map arrays files) ([], [], []) = Some (ma, mr, failed) /\
    length ma = length files /\ length mr = length files /\
    (existsb (fun b => b) failed = false <-> Forall same_numbers files)).
  { destruct H as (ma & mr & failed & -> & L1 & L2 & H). cbn [bind fst snd].
    assert (exists x, np_max ma = Some x) as (x & ->) by (destruct ma, files; cbn in *; try lia; try congruence; eauto).
    assert (exists y, np_max mr = Some y) as (y & ->) by (destruct mr, files; cbn in *; try lia; try congruence; eauto).
    cbn [bind]. eexists. split; [reflexivity|]. now rewrite negb_true_iff. }
  clear NE.
  assert (G : forall files ma mr failed, Forall comparable files -> py_any ma = py_any mr -> (existsb (fun b => b) failed = false <-> ~ flagged ma) ->
    exists ma' mr' failed',
    foldM (check_forward_backward_step (Fin rtol) (Fin atol)) (map arrays files) (ma, mr, failed) = Some (ma', mr', failed') /\
    length ma' = length ma + length files /\ length mr' = length mr + length files /\
    (existsb (fun b => b) failed' = false <-> ~ flagged ma /\ Forall same_numbers files)).
  { clear -Hr Ha. induction files as [|f files IH]; intros ma mr failed C Ea H.
    - exists ma, mr, failed. cbn. split; auto. split; [lia|]. split; [lia|]. rewrite H. split; [intro K; split; auto | now intros [K _]].
    - inversion C as [|? ? Cf Cs]; subst. cbn [map foldM].
      destruct (step_ok ma mr failed f Cf Ea) as (e & r & fl & -> & Ea' & Hf & Hn). cbn [bind].
      destruct (IH (ma ++ [e]) (mr ++ [r]) (failed ++ [fl]) Cs Ea') as (ma' & mr' & failed' & -> & L1 & L2 & R).
      + rewrite existsb_app. cbn [existsb]. rewrite orb_false_r, orb_false_iff, H, Hn. 
        destruct fl; split; intro K.
        * destruct K; discriminate.
        * exfalso. apply K. now apply Hf.
        * destruct K as [K _]. intro X. apply Hf in X. discriminate.
        * split; auto.
      + exists ma', mr', failed'. rewrite app_length in L1, L2. cbn in *. split; auto. split; [lia|]. split; [lia|]. rewrite R, Hn. clear -Hr. split.
        * intros [X Y]. split; [tauto|]. constructor; auto.
          destruct f as [u v]. unfold same_numbers in *. cbn in *. destruct (list_eq_dec Qc_eq_dec (numbers u) (numbers v)) as [E|E]; tauto.
        * intros [X Y]. inversion Y; subst. tauto. }
  destruct (G files [] [] [] C eq_refl) as (ma & mr & failed & E & L1 & L2 & R).
  - cbn. split; auto. intros _. unfold flagged. cbn. discriminate.
  - exists ma, mr, failed. repeat split; auto.
    + intro X. now apply R in X as [_ X].
    + intro X. apply R. split; auto. unfold flagged. cbn. discriminate.
Qed.
End Passes.

(** The tolerances play no part ([any] of a list is [True], and that is what is compared with them):
    a difference far below both makes the test fail. *)
Theorem C87_tolerance_refuted :
  ~ (forall files, Forall comparable files ->
     (forall f i a b, In f files -> nth_error (fst f) i = Some (Some a) -> nth_error (snd f) i = Some (Some b) -> (Qcabs (a - b) <= atol_kc)%Qc) ->
     (forall f i, In f files -> nth_error (fst f) i = Some None <-> nth_error (snd f) i = Some None) ->
     check_forward_backward_results (Fin rtol_used) (Fin atol_kc) (map arrays files) <> Some false).
Proof.
  intro H. apply (H [([Some (zq 5); None], [Some (zq 5 + tol 1 9)%Qc; None])]).
  - constructor; [|constructor]. split; [reflexivity|]. split; [reflexivity|]. split; [discriminate|].
    intros m [[<-|[]] _]. vm_compute. congruence.
  - intros f [|[|[|i]]] a b [<-|[]]; cbn; try discriminate. intros [= <-] [= <-]. vm_compute. congruence.
  - intros f [|[|[|i]]] [<-|[]]; cbn; split; congruence.
  - vm_compute. reflexivity.
Qed.

(** And a test that passes does not show that the infinite entries are in the same places. *)
Theorem C87_places_refuted :
  ~ (forall files, Forall comparable files ->
     check_forward_backward_results (Fin rtol_used) (Fin atol_kc) (map arrays files) = Some true ->
     forall f, In f files -> fst f = snd f).
Proof.
  intro H. specialize (H [([Some (zq 5); None; Some (zq 7)], [None; Some (zq 5); Some (zq 7)])]).
  assert (E : [Some (zq 5); None; Some (zq 7)] = [None; Some (zq 5); Some (zq 7)]); [|discriminate].
  refine (H _ _ _ (or_introl eq_refl)).
  - constructor; [|constructor]. split; [reflexivity|]. split; [reflexivity|]. split; [discriminate|].
    intros m [[<-|[<-|[]]] _]; vm_compute; congruence.
  - vm_compute. reflexivity.
Qed.

(** NaN in a table of the pure Python pass makes the test fail ... *)
Theorem C87_passes_nan : forall rtol atol files y_pure y_wrapper, (0 <= rtol)%Qc /\ (rtol < 1)%Qc ->
  In (y_pure, y_wrapper) files -> In NaN y_pure ->
  check_forward_backward_results (Fin rtol) atol files <> Some true.
Proof.
  intros rtol atol files yp yw Hr I IN.
  assert (St : forall st y st', check_forward_backward_step (Fin rtol) atol st y = Some st' ->
    (existsb (fun b => b) (snd st) = true -> existsb (fun b => b) (snd st') = true) /\
    (In NaN (fst y) -> existsb (fun b => b) (snd st') = true)).
  { intros ((ma, mr), fl) (a, b) st' E. unfold check_forward_backward_step in E.
    destruct (np_sub _ _) as [d|]; cbn [bind] in E; [|discriminate].
    destruct (np_nanmax _) as [e|]; cbn [bind] in E; [|discriminate].
    destruct (np_max (np_not_inf a)) as [m|] eqn:Em; cbn [bind] in E; [|discriminate].
    destruct (negb _); [discriminate|]. injection E as <-. cbn [snd fst]. rewrite !existsb_app. split; [intros ->; reflexivity|].
    intros Ia. rewrite np_max_nan in Em.
    - injection Em as <-. cbn [existsb]. change (nabs (nadd NaN tiny)) with NaN.
      replace (np_div e NaN) with NaN by (destruct e; reflexivity).
      replace (py_any (mr ++ [NaN])) with n1 by now rewrite any_app.
      apply orb_true_iff; right. apply orb_true_iff; left. apply orb_true_iff; right. exact (n1_gt rtol Hr).
    - apply filter_In. split; [exact Ia|reflexivity]. }
  assert (F : forall l st st', foldM (check_forward_backward_step (Fin rtol) atol) l st = Some st' ->
    existsb (fun b => b) (snd st) = true \/ In (yp, yw) l -> existsb (fun b => b) (snd st') = true).
  { induction l as [|y l IH]; intros st st' E [H|H]; cbn [foldM] in E.
    - injection E as <-. exact H.
    - destruct H.
    - destruct (check_forward_backward_step _ _ st y) as [s1|] eqn:E1; [|discriminate]. cbn [bind] in E.
      apply (IH s1 st' E). left. exact (proj1 (St st y s1 E1) H).
    - destruct (check_forward_backward_step _ _ st y) as [s1|] eqn:E1; [|discriminate]. cbn [bind] in E.
      apply (IH s1 st' E). destruct H as [->|H]; [|now right]. left. exact (proj2 (St st (yp, yw) s1 E1) IN). }
  unfold check_forward_backward_results. destruct (foldM _ _ _) as [((ma, mr), fl)|] eqn:E; cbn [bind]; [|discriminate].
  specialize (F _ _ _ E (or_intror I)). cbn [snd] in F. rewrite F.
  destruct (np_max ma); cbn [bind]; [|discriminate]. destruct (np_max mr); cbn [bind]; discriminate.
Qed.
(** ... but in a table of the C++ pass it is overlooked. *)
Theorem C87_passes_nan_refuted :
  ~ (forall files, check_forward_backward_results (Fin rtol_used) (Fin atol_kc) files = Some true ->
     forall y_pure y_wrapper, In (y_pure, y_wrapper) files -> ~ In NaN y_wrapper).
Proof.
  intro H. refine (H [([zn 5; PInf; zn 7], [NaN; PInf; zn 7])] _ _ _ (or_introl eq_refl) (or_introl eq_refl)).
  vm_compute. reflexivity.
Qed.

(** ** Examples *)
Example C87_example :
  largest (zq 8) [zq 3; zq 8; zq (-2)] /\ (zq 8 + tinyq <> 0)%Qc /\
  (* within both tolerances *)
  check_agreement (Fin rtol_used) (Fin atol_used) [zn 3; zn 8; zn (-2)]
    [Fin (zq 3 + tol 9 5)%Qc; zn 8; zn (-2)] = Some true /\
  (* beyond the absolute one *)
  check_agreement (Fin rtol_used) (Fin atol_used) [zn 3; zn 8; zn (-2)]
    [Fin (zq 3 + tol 2 4)%Qc; zn 8; zn (-2)] = Some false /\
  (* the largest entry is zero: any difference is too large *)
  check_agreement (Fin rtol_used) (Fin atol_used) [zn (-900); zn 0]
    [Fin (zq (-900) + tol 1 20)%Qc; zn 0] = Some false /\
  check_forward_backward_results (Fin rtol_used) (Fin atol_kc)
    (map arrays [([None; Some (zq 4)], [None; Some (zq 4)]); ([Some (zq 1); None], [Some (zq 1); None])]) = Some true /\
  check_forward_backward_results (Fin rtol_used) (Fin atol_kc)
    (map arrays [([None; Some (zq 4)], [None; Some (zq 4)]); ([Some (zq 1); None], [Some (zq 2); None])]) = Some false /\
  (* arrays of different shapes *)
  check_agreement (Fin rtol_used) (Fin atol_used) [zn 3] [zn 3; zn 4] = None.
Proof.
  split; [|split; [vm_compute; congruence | repeat split; vm_compute; reflexivity]].
  split; [now right; left|]. intros x [<-|[<-|[<-|[]]]]; vm_compute; congruence.
Qed.

Print Assumptions C87_verdict.
Print Assumptions C87_nan.
Print Assumptions C87_agree_refuted.
Print Assumptions C87_passes_verdict.
Print Assumptions C87_tolerance_refuted.
Print Assumptions C87_places_refuted.
Print Assumptions C87_passes_nan.
Print Assumptions C87_passes_nan_refuted.
