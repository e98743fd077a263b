(** * Proofs about filtering. *)
From Verif Require Import Num NumFacts Arr ArrFacts MinSumFacts Spec M_Filter
  P_Tsp_Constraints P_Kc_Trellis P_Ksat P_Equality.
Local Open Scope nat_scope.

Definition on (flag : bool) (a : Qc) : bool := flag && negb (neqb (Fin a) n0).

Lemma on_iff flag a : on flag a = true <-> flag = true /\ a <> 0%Qc.
Proof.
  unfold on, n0. cbn [neqb nlt]. rewrite andb_true_iff, negb_true_iff, andb_false_iff, !negb_false_iff.
  rewrite !qltb_true. split; intros [H1 H2]; split; auto.
  - intros ->. destruct H2; eapply Qclt_not_eq; eauto.
  - destruct (Qc_dec a 0) as [[H|H]|H]; auto. contradiction.
Qed.

(** what one entry becomes *)
Definition blend1 (flag : bool) (a : Qc) (iter : nat) (d o : Qc) : Qc :=
  if on flag a then (if iter =? 0 then d * (1 - a) else d * (1 - a) + o * a)%Qc else d.

Lemma filter_row_ok flag a iter k (d o : list Qc) (r : list num) :
  length d = k -> length r = k -> (on flag a = true -> length o = k) ->
  exists q, length q = k /\
    filter_row flag (Fin a) iter (map Fin d) (map Fin o) r =
      Some (map Fin q, if on flag a then map Fin q else map Fin o) /\
    forall j, j < k -> nth j q 0%Qc = blend1 flag a iter (nth j d 0%Qc) (nth j o 0%Qc).
Proof.
  intros Hd Hr Ho. unfold filter_row, blend1. fold (on flag a). destruct (on flag a).
  - specialize (Ho eq_refl). cbn [nsub nopp nadd n1].
    assert (E1 : map (fun c => nmul c (Fin (1 + - a))) (map Fin d) = map Fin (map (fun c => (c * (1 - a))%Qc) d)).
    { rewrite !map_map. apply map_ext. intros c. reflexivity. }
    assert (E2 : map (fun c => nmul c (Fin a)) (map Fin o) = map Fin (map (fun c => (c * a)%Qc) o)).
    { rewrite !map_map. apply map_ext. intros c. reflexivity. }
    rewrite E1, E2. destruct (iter =? 0).
    + exists (map (fun c => (c * (1 - a))%Qc) d). rewrite map_length. split; auto. split.
      * rewrite copy_into_same by (rewrite !map_length; lia). cbn [bind].
        rewrite copy_into_same by (rewrite !map_length; lia). reflexivity.
      * intros j Hj. rewrite (nth_indep _ 0%Qc ((fun c => (c * (1 - a))%Qc) 0%Qc)) by (rewrite map_length; lia).
        rewrite (map_nth (fun c => (c * (1 - a))%Qc)). auto.
    + exists (qplus (map (fun c => (c * (1 - a))%Qc) d) (map (fun c => (c * a)%Qc) o)).
      assert (L : length (qplus (map (fun c => (c * (1 - a))%Qc) d) (map (fun c => (c * a)%Qc) o)) = k).
      { unfold qplus. rewrite zip_with_length, !map_length. lia. }
      split; auto. split.
      * rewrite transform2_same by (rewrite !map_length; lia). cbn [bind].
        assert (E3 : forall u v, zip_with nadd (map Fin u) (map Fin v) = map Fin (qplus u v)).
        { clear. unfold qplus, zip_with. induction u as [|x u IH]; intros [|y v]; cbn; auto. f_equal. apply IH. }
        rewrite E3. rewrite copy_into_same by (rewrite map_length; lia). cbn [bind].
        rewrite copy_into_same by (rewrite !map_length; lia). reflexivity.
      * intros j Hj. 
        assert (G : get (qplus (map (fun c => (c * (1 - a))%Qc) d) (map (fun c => (c * a)%Qc) o)) j
                    = Some (nth j d 0 * (1 - a) + nth j o 0 * a)%Qc).
        { unfold qplus. apply (get_zip_with Qcplus).
          - rewrite get_map, (get_nth d j 0%Qc) by lia. auto.
          - rewrite get_map, (get_nth o j 0%Qc) by lia. auto. }
        rewrite (get_nth _ j 0%Qc) in G by lia. congruence.
  - exists d. split; auto. split; [|auto].
    rewrite copy_into_same by (rewrite !map_length; lia). reflexivity.
Qed.

Lemma inj_upd (M : list (list Qc)) i q : inj (upd M i q) = upd (inj M) i (map Fin q).
Proof. unfold inj. revert i; induction M as [|r M IH]; intros [|i]; cbn; auto. f_equal. auto. Qed.
Lemma shape_updr {A} n k (m : list (list A)) i r : shape n k m -> length r = k -> shape n k (upd m i r).
Proof. intros [L F] Hr. split; [rewrite upd_length; auto|]. apply Forall_upd; auto. Qed.
Lemma qat_upd n k (M : list (list Qc)) i q i' j : shape n k M -> i < n ->
  qat (upd M i q) i' j = if i =? i' then nth j q 0%Qc else qat M i' j.
Proof.
  intros [L F] Hi. unfold qat. assert (E : nth i' (upd M i q) [] = if i =? i' then q else nth i' M []).
  { clear F. revert n i i' L Hi; induction M as [|r M IH]; intros n i i' L Hi; cbn in L; [lia|].
    destruct i as [|i], i' as [|i']; cbn; auto. destruct n; [lia|]. apply (IH n); lia. }
  rewrite E. destruct (i =? i'); auto.
Qed.

Lemma filter_at_ok flag a iter n N k i (Dm Om : list (list Qc)) (out : list (list num)) :
  shape n k Dm -> shape N k Om -> shape n k out -> (on flag a = true -> n <= N) -> i < n ->
  exists q, length q = k /\
    filter_at flag (Fin a) iter i (inj Dm) (inj Om) out =
      Some (upd out i (map Fin q), inj (if on flag a then upd Om i q else Om)) /\
    forall j, j < k -> nth j q 0%Qc = blend1 flag a iter (qat Dm i j) (qat Om i j).
Proof.
  intros HD HO HS HN Hi. unfold filter_at. rewrite (get_inj n k) by auto. cbn [bind].
  destruct (get_lt out i) as [r Gr]; [destruct HS; lia|]. rewrite Gr. cbn [bind].
  assert (Lr : length r = k) by (eapply shape_row; eauto).
  assert (Ld : length (nth i Dm []) = k) by (eapply shape_nth; eauto).
  fold (on flag a). destruct (on flag a) eqn:On.
  - specialize (HN eq_refl). rewrite (get_inj N k) by (auto; lia). cbn [bind].
    destruct (filter_row_ok flag a iter k (nth i Dm []) (nth i Om []) r) as (q & Lq & E & Hq); auto.
    { intros _. eapply shape_nth; eauto; lia. }
    rewrite E, On. cbn [bind]. rewrite set_lt by (destruct HS; lia). cbn [bind].
    rewrite set_lt by (unfold inj; rewrite map_length; destruct HO; lia). cbn [bind].
    exists q. rewrite inj_upd. auto.
  - destruct (filter_row_ok flag a iter k (nth i Dm []) [] r) as (q & Lq & E & Hq); auto; [congruence|].
    cbn [map] in E. rewrite E. cbn [bind]. rewrite set_lt by (destruct HS; lia). cbn [bind].
    exists q. split; auto. split; auto. intros j Hj. rewrite Hq by auto. unfold blend1. rewrite On. reflexivity.
Qed.

Lemma process_filtering_ok flag a iter n N k (Dm Om : list (list Qc)) (out : list (list num)) :
  shape n k Dm -> shape N k Om -> shape n k out -> (on flag a = true -> n <= N) ->
  exists Q O', process_filtering flag (Fin a) iter n (inj Dm) (inj Om) out = Some (inj Q, inj O') /\
    shape n k Q /\ shape N k O' /\
    (forall i j, i < n -> j < k -> qat Q i j = blend1 flag a iter (qat Dm i j) (qat Om i j)) /\
    (forall i j, i < n -> j < k -> on flag a = true -> qat O' i j = qat Q i j).
Proof.
  intros HD HO HS HN. unfold process_filtering.
  match goal with |- context [for_up 0 n ?st0 ?bd] =>
    destruct (for_up_ind 0 n st0 bd (fun i st => shape n k (fst st) /\
      exists O', snd st = inj O' /\ shape N k O' /\
      (forall i' j, i <= i' -> qat O' i' j = qat Om i' j) /\
      (forall i' j, i' < i -> j < k ->
         get2 (fst st) i' j = Some (Fin (blend1 flag a iter (qat Dm i' j) (qat Om i' j)))) /\
      (forall i' j, i' < i -> j < k -> on flag a = true ->
         qat O' i' j = blend1 flag a iter (qat Dm i' j) (qat Om i' j)))) as ([o od] & E & S & O' & EO & SO & _ & H1 & H2) end.
  - lia.
  - cbn [fst snd]. split; auto. exists Om. split; auto. split; auto. split; auto. split; intros; lia.
  - intros i [o od] Hi (S & O' & EO & SO & H0 & H1 & H2). cbn [fst snd] in *. subst od.
    destruct (filter_at_ok flag a iter n N k i Dm O' o) as (q & Lq & E & Hq); auto; [lia|].
    rewrite E. eexists; split; [reflexivity|]. cbn [fst snd]. split.
    { apply shape_updr; auto. rewrite map_length; auto. }
    eexists; split; [reflexivity|].
    assert (Hq' : forall j, j < k -> nth j q 0%Qc = blend1 flag a iter (qat Dm i j) (qat Om i j)).
    { intros j Hj. rewrite Hq by auto. rewrite H0 by lia. auto. }
    split; [destruct (on flag a); auto; apply shape_updr; auto|].
    split; [|split].
    + intros i' j Hi'. destruct (on flag a) eqn:On.
      * specialize (HN eq_refl). rewrite (qat_upd N k) by (auto; lia).
        destruct (Nat.eqb_spec i i'); [lia|]. apply H0; lia.
      * apply H0; lia.
    + intros i' j Hi' Hj. rewrite get2_upd by (destruct S; lia).
      destruct (Nat.eqb_spec i i') as [<-|Hn].
      * rewrite (get_mapFin _ _ k) by auto. rewrite Hq' by auto. auto.
      * apply H1; auto; lia.
    + intros i' j Hi' Hj On. rewrite On. specialize (HN On). rewrite (qat_upd N k) by (auto; lia).
      destruct (Nat.eqb_spec i i') as [<-|Hn]; [auto|]. apply H2; auto; lia.
  - cbn [fst snd] in *. subst od. destruct (fin_mat n k o) as (Q & SQ & ->); auto.
    { intros i j Hi Hj. eexists. apply H1; auto. }
    assert (HQ : forall i j, i < n -> j < k -> qat Q i j = blend1 flag a iter (qat Dm i j) (qat Om i j)).
    { intros i j Hi Hj. specialize (H1 i j Hi Hj). rewrite (get2_inj n k) in H1 by auto. congruence. }
    exists Q, O'. split; [exact E|]. split; auto. split; auto. split; auto.
    intros i j Hi Hj On. rewrite H2, HQ; auto.
Qed.

(** ** Runs *)
Lemma qsum_map_mul {A} (f : A -> Qc) c l : qsum (map (fun x => f x * c)%Qc l) = (qsum (map f l) * c)%Qc.
Proof.
  induction l as [|x l IH]; cbn [map]; [cbn; ring|]. rewrite !qsum_cons, IH. ring.
Qed.

(** closed form of the blend over the history [xs], oldest first *)
Definition expo (a : Qc) (xs : list Qc) : Qc :=
  qsum (map (fun i => (1 - a) * a ^ (length xs - 1 - i) * nth i xs 0)%Qc (seq 0 (length xs))).

Lemma expo_snoc a xs x : expo a (xs ++ [x]) = (x * (1 - a) + expo a xs * a)%Qc.
Proof.
  unfold expo. rewrite app_length. cbn [length]. rewrite Nat.add_1_r, seq_S, map_app, qsum_app. cbn [map].
  rewrite qsum_cons. change (qsum []) with 0%Qc.
  rewrite <- qsum_map_mul. cbn [Nat.add]. rewrite app_nth2, Nat.sub_diag by lia. cbn [nth].
  replace (S (length xs) - 1 - length xs) with 0 by lia. cbn [Qcpower].
  assert (E : map (fun i => ((1 - a) * a ^ (S (length xs) - 1 - i) * nth i (xs ++ [x]) 0)%Qc) (seq 0 (length xs))
    = map (fun i => ((1 - a) * a ^ (length xs - 1 - i) * nth i xs 0 * a)%Qc) (seq 0 (length xs))).
  { apply map_ext_in. intros i Hi. apply in_seq in Hi. rewrite app_nth1 by lia.
    replace (S (length xs) - 1 - i) with (S (length xs - 1 - i)) by lia. cbn [Qcpower]. ring. }
  rewrite E. ring.
Qed.

Definition hist (raws : list (list (list Qc))) (i j : nat) : list Qc := map (fun M => qat M i j) raws.

Lemma filter_run_app flag a n iter r1 r2 old out :
  filter_run flag a n iter (r1 ++ r2) old out =
  bind (filter_run flag a n iter r1 old out)
       (fun st => filter_run flag a n (iter + length r1) r2 (snd st) (fst st)).
Proof.
  revert iter old out; induction r1 as [|d r1 IH]; intros iter old out; cbn [filter_run app length].
  - cbn [bind]. rewrite Nat.add_0_r. reflexivity.
  - destruct (process_filtering flag a iter n d old out) as [[o od]|]; cbn [bind]; auto.
    rewrite IH. replace (S iter + length r1) with (iter + S (length r1)) by lia. reflexivity.
Qed.

Lemma filter_run_ok flag a n N k (raws : list (list (list Qc))) (Om : list (list Qc)) (out : list (list num)) :
  Forall (shape n k) raws -> raws <> [] -> shape N k Om -> shape n k out ->
  (on flag a = true -> n <= N) ->
  exists Q O', filter_run flag (Fin a) n 0 (map inj raws) (inj Om) out = Some (inj Q, inj O') /\
    shape n k Q /\ shape N k O' /\
    (forall i j, i < n -> j < k -> qat Q i j =
       if on flag a then expo a (hist raws i j) else last (hist raws i j) 0%Qc) /\
    (forall i j, i < n -> j < k -> on flag a = true -> qat O' i j = qat Q i j).
Proof.
  intros HR Hne HO HS HN. induction raws as [|M raws IH] using rev_ind; [congruence|].
  apply Forall_app in HR as [HR HM]. inversion HM as [|? ? HM' _]; subst.
  rewrite map_app, filter_run_app. cbn [map filter_run]. rewrite map_length. destruct raws as [|M0 raws'].
  - cbn [map filter_run bind length Nat.add fst snd].
    destruct (process_filtering_ok flag a 0 n N k M Om out) as (Q & O' & E & SQ & SO & H1 & H2); auto.
    rewrite E. cbn [bind]. exists Q, O'. split; auto. split; auto. split; auto. split; auto.
    intros i j Hi Hj. rewrite H1 by auto. unfold blend1, hist. cbn [app map last].
    destruct (on flag a); auto. cbn [Nat.eqb]. unfold expo. cbn. ring.
  - destruct IH as (Q & O' & E & SQ & SO & H1 & H2); auto; [discriminate|].
    rewrite E. cbn [bind fst snd].
    destruct (process_filtering_ok flag a (0 + length (M0 :: raws')) n N k M O' (inj Q))
      as (Q2 & O2 & E2 & SQ2 & SO2 & H3 & H4); auto.
    { apply shape_inj; auto. }
    rewrite E2. cbn [bind]. exists Q2, O2. split; auto. split; auto. split; auto. split; auto.
    intros i j Hi Hj. rewrite H3 by auto. unfold blend1, hist. rewrite map_app. cbn [map].
    rewrite last_last. destruct (on flag a) eqn:On; auto.
    rewrite H2, H1 by auto. rewrite expo_snoc. cbn [length Nat.add Nat.eqb]. reflexivity.
Qed.

Lemma expo_range a xs lo hi : (0 <= a)%Qc -> (a <= 1)%Qc -> (lo <= 0)%Qc -> (0 <= hi)%Qc ->
  Forall (fun x => lo <= x /\ x <= hi)%Qc xs -> (lo <= expo a xs /\ expo a xs <= hi)%Qc.
Proof.
  intros A0 A1 L0 H0 HF. induction xs as [|x xs IH] using rev_ind.
  - cbn. auto.
  - apply Forall_app in HF as [HF Hx]. specialize (IH HF). inversion Hx as [|? ? [X1 X2] _]; subst.
    rewrite expo_snoc. destruct IH as [I1 I2].
    assert (P1 : (0 <= 1 - a)%Qc) by qlra.
    pose proof (Qcmult_le_compat_r _ _ _ X1 P1). pose proof (Qcmult_le_compat_r _ _ _ X2 P1).
    pose proof (Qcmult_le_compat_r _ _ _ I1 A0). pose proof (Qcmult_le_compat_r _ _ _ I2 A0).
    split.
    + assert (E : lo = (lo * (1 - a) + lo * a)%Qc) by ring. rewrite E at 1. apply Qcplus_le_compat; auto.
    + assert (E : hi = (hi * (1 - a) + hi * a)%Qc) by ring. rewrite E at 1. apply Qcplus_le_compat; auto.
Qed.

Lemma expo_const a c m : expo a (repeat c m) = (c * (1 - a ^ m))%Qc.
Proof.
  induction m as [|m IH].
  - cbn. ring.
  - replace (repeat c (S m)) with (repeat c m ++ [c]).
    + rewrite expo_snoc, IH. cbn [Qcpower]. ring.
    + clear. induction m; cbn; auto. f_equal. auto.
Qed.
