(** * Proofs about the knapsack updates. *)
From Coq Require Import Sorted.
From Verif Require Import Num NumFacts Arr ArrFacts MinSum MinSumFacts M_Knapsack
  P_Tsp_Constraints P_Kc_Trellis P_Ksat.
Local Open Scope nat_scope.

(** ** Increasing lists *)
Definition incr (l : list nat) : Prop :=
  forall i j a b, i < j -> get l i = Some a -> get l j = Some b -> a < b.
Lemma incr_cons_inv a l : incr (a :: l) -> incr l /\ Forall (fun b => a < b) l.
Proof.
  intros H; split.
  - intros i j x y Hij Hx Hy. apply (H (S i) (S j)); auto; lia.
  - apply Forall_forall. intros b Hb. apply In_nth_error in Hb as [j Hj]. apply (H 0 (S j)); auto; lia.
Qed.
Lemma incr_cons a l : incr l -> Forall (fun b => a < b) l -> incr (a :: l).
Proof.
  intros H F i j x y Hij Hx Hy. destruct j as [|j]; [lia|]. destruct i as [|i]; cbn in Hx, Hy.
  - injection Hx as <-. rewrite Forall_forall in F. apply F. eapply nth_error_In; eauto.
  - apply (H i j); auto; lia.
Qed.
Lemma incr_filter f l : incr l -> incr (filter f l).
Proof.
  induction l as [|a l IH]; intros H; cbn; auto. apply incr_cons_inv in H as [H F].
  destruct (f a); auto. apply incr_cons; auto. rewrite Forall_forall in *.
  intros b Hb. apply filter_In in Hb as [Hb _]; auto.
Qed.
Lemma incr_seq s n : incr (seq s n).
Proof.
  revert s; induction n as [|n IH]; intros s; cbn; [intros [|i] j a b _ H; discriminate|].
  apply incr_cons; auto. apply Forall_forall. intros b Hb. apply in_seq in Hb. lia.
Qed.
Lemma incr_sortedb l : incr l -> sortedb l = true.
Proof.
  induction l as [|a l IH]; intros H; cbn; auto. apply incr_cons_inv in H as [H F].
  destruct l as [|b l]; auto. inversion F; subst. rewrite (IH H).
  destruct (Nat.leb_spec a b); auto; lia.
Qed.
Lemma incr_NoDup l : incr l -> NoDup l.
Proof.
  induction l as [|a l IH]; intros H; constructor; apply incr_cons_inv in H as [H F]; auto.
  intros Hi. rewrite Forall_forall in F. specialize (F _ Hi). lia.
Qed.
Lemma first_greater_at l x n y : (forall i a, i < n -> get l i = Some a -> a <= x) ->
  get l n = Some y -> x < y -> first_greater l x = n.
Proof.
  revert n; induction l as [|a l IH]; intros n H Hn Hy; [destruct n; discriminate|].
  cbn [first_greater]. destruct n as [|n]; cbn in Hn.
  - injection Hn as ->. destruct (Nat.ltb_spec x y); auto; lia.
  - assert (Ha : a <= x) by (apply (H 0); auto; lia). destruct (Nat.ltb_spec x a) as [Hxa|Hxa]; [lia|].
    f_equal. apply IH; auto. intros i b Hi Hb. apply (H (S i)); auto; lia.
Qed.
Lemma existsb_In x l : existsb (Nat.eqb x) l = true <-> In x l.
Proof.
  rewrite existsb_exists. split.
  - intros (y & H & E). apply Nat.eqb_eq in E. subst; auto.
  - intros H; exists x; split; auto. apply Nat.eqb_refl.
Qed.

Lemma filter_length_le {A} (f : A -> bool) l : length (filter f l) <= length l.
Proof. induction l as [|a l IH]; cbn; [lia|]. destruct (f a); cbn; lia. Qed.

(** ** Minima of many alternatives *)
Lemma cmin_many {I} (idx : list I) (al : I -> list bool -> Prop) (v : I -> num) m :
  (forall i, In i idx -> cmin (al i) m (v i)) ->
  cmin (fun x => exists i, In i idx /\ al i x) m (nmins (map v idx)).
Proof.
  induction idx as [|i idx IH]; intros H; cbn [map nmins].
  - apply cmin_impossible. intros x _ (i & [] & _).
  - eapply cmin_ext; [|apply cmin_union; [apply (H i); left; auto|apply IH; intros; apply H; right; auto]].
    intros x _; cbn. split.
    + intros [A|(j & J & A)]; eauto.
    + intros (j & [<-|J] & A); eauto.
Qed.
Lemma cmin_notnan al m v : cmin al m v -> notnan v.
Proof. apply is_min_of_notnan. Qed.
Lemma weight_app w1 w2 x1 x2 : length x1 = length w1 ->
  weight (w1 ++ w2) (x1 ++ x2) = weight w1 x1 + weight w2 x2.
Proof.
  revert x1; induction w1 as [|a w1 IH]; intros [|b x1] H; cbn in *; try lia.
  rewrite IH by lia. lia.
Qed.
Lemma weight_insert i w x b : i < length w -> length x = pred (length w) ->
  weight w (insert_at i b x) = weight (remove_at i w) x + (if b then nth i w 0 else 0).
Proof.
  revert w x; induction i as [|i IH]; intros [|a w] x H L; cbn in *; try lia.
  destruct x as [|y x]; cbn in *; [lia|]. rewrite IH by lia. lia.
Qed.
Lemma cmin_value al m v : cmin al m v -> value v.
Proof. apply is_min_of_value. Qed.

Lemma nmins_shift_num vs c : Forall notnan vs ->
  nmins (map (fun v => nadd v (Fin c)) vs) = nadd (nmins vs) (Fin c).
Proof.
  intros H; induction H as [|v vs Hv H IH]; cbn [map nmins]; auto. rewrite IH.
  symmetry; apply nmin_nadd_Fin; auto using nmins_notnan.
Qed.

(** ** Filling rows *)
Lemma fill_up_ok {A} (rows : list A) (lo hi : nat) (r : A) : lo <= hi -> hi < length rows ->
  exists rows', for_up lo hi rows (fun rows j => set rows (j + 1) r) = Some rows' /\
    length rows' = length rows /\
    forall j, get rows' j = if (lo <? j) && (j <=? hi) then Some r else get rows j.
Proof.
  intros H1 H2.
  destruct (for_up_ind lo hi rows (fun rows j => set rows (j + 1) r) (fun i rs =>
    length rs = length rows /\
    forall j, get rs j = if (lo <? j) && (j <=? i) then Some r else get rows j)) as (rs & E & L & H).
  - lia.
  - split; auto. intros j. destruct (Nat.ltb_spec lo j), (Nat.leb_spec j lo); cbn; auto; lia.
  - intros i rs Hi (L & H). rewrite set_lt by lia. eexists; split; [reflexivity|].
    rewrite upd_length. split; auto. intros j. rewrite get_upd by lia.
    destruct (Nat.eqb_spec (i + 1) j) as [<-|Hn].
    + destruct (Nat.ltb_spec lo (i + 1)), (Nat.leb_spec (i + 1) (i + 1)); cbn; auto; lia.
    + rewrite H. destruct (Nat.ltb_spec lo j), (Nat.leb_spec j i), (Nat.leb_spec j (i + 1)); cbn; auto; lia.
  - eauto.
Qed.
Lemma fill_down_ok {A} (rows : list A) (lo hi : nat) (r : A) : lo <= hi -> hi <= length rows ->
  exists rows', for_down lo hi rows (fun rows j => set rows j r) = Some rows' /\
    length rows' = length rows /\
    forall j, get rows' j = if (lo <=? j) && (j <? hi) then Some r else get rows j.
Proof.
  intros H1 H2.
  destruct (for_down_ind lo hi rows (fun rows j => set rows j r) (fun i rs =>
    length rs = length rows /\
    forall j, get rs j = if (i <=? j) && (j <? hi) then Some r else get rows j)) as (rs & E & L & H).
  - lia.
  - split; auto. intros j. destruct (Nat.leb_spec hi j), (Nat.ltb_spec j hi); cbn; auto; lia.
  - intros i rs Hi (L & H). rewrite set_lt by lia. eexists; split; [reflexivity|].
    rewrite upd_length. split; auto. intros j. rewrite get_upd by lia.
    destruct (Nat.eqb_spec i j) as [<-|Hn].
    + destruct (Nat.leb_spec i i), (Nat.ltb_spec i hi); cbn; auto; lia.
    + rewrite H. destruct (Nat.leb_spec (i + 1) j), (Nat.leb_spec i j), (Nat.ltb_spec j hi); cbn; auto; lia.
  - eauto.
Qed.

Lemma shape_get_ext {A} n k (m : list (list A)) : length m = n ->
  (forall i r, get m i = Some r -> length r = k) -> shape n k m.
Proof.
  intros L H. split; auto. apply Forall_forall. intros r Hr. apply In_nth_error in Hr as [i Hi]. eauto.
Qed.

(** ** One department *)
Section Department.
Variables (T cap : nat) (ws : list nat) (ms : list Qc).
Hypothesis HW : length ws = T.
Hypothesis HM : length ms = T.
Definition part : list nat := filter (fun t => negb (nth t ws 0 =? 0)) (seq 0 T).
Let nz := part.
Hypothesis Hcap : forall t, t < T -> nth t ws 0 <= cap.
Hypothesis Hne : part <> [].

Definition Wl (l : list nat) : list nat := map (fun t => nth t ws 0) l.
Definition Ml (l : list nat) : list Qc := map (fun t => nth t ms 0%Qc) l.

Lemma nz_incr : incr nz.
Proof. apply incr_filter, incr_seq. Qed.
Lemma nz_In t : In t nz <-> t < T /\ nth t ws 0 <> 0.
Proof.
  unfold nz, part. rewrite filter_In, in_seq. rewrite negb_true_iff, Nat.eqb_neq. lia.
Qed.
Lemma nz_get p t : get nz p = Some t -> t < T /\ nth t ws 0 <> 0.
Proof. intros H. apply nz_In. eapply nth_error_In; eauto. Qed.
Lemma nz_bs x : binary_search nz x = Some (existsb (Nat.eqb x) nz).
Proof. unfold binary_search. rewrite incr_sortedb by apply nz_incr. auto. Qed.
Lemma nz_ub x : upper_bound nz x = Some (first_greater nz x).
Proof. unfold upper_bound. rewrite incr_sortedb by apply nz_incr. auto. Qed.
Lemma filter_full {A} (f : A -> bool) l : length (filter f l) = length l -> filter f l = l.
Proof.
  induction l as [|a l IH]; cbn; auto. destruct (f a); cbn; intros H; [f_equal; auto|].
  pose proof (filter_length_le f l). lia.
Qed.
Lemma nz_full p t : length nz = T -> get nz p = Some t -> t = p.
Proof.
  intros HL Hp. assert (E : nz = seq 0 T).
  { unfold nz, part in *. apply filter_full. rewrite seq_length. auto. }
  rewrite E in Hp. pose proof (get_Some_lt _ _ _ Hp) as Hl. rewrite seq_length in Hl.
  rewrite get_seq in Hp by lia. injection Hp as <-. lia.
Qed.
Lemma nz_nonempty : exists z, get nz 0 = Some z.
Proof. unfold nz. destruct part; [congruence|]. eexists; reflexivity. Qed.
Lemma nz_length : length nz <= T.
Proof. unfold nz, part. pose proof (filter_length_le (fun t => negb (nth t ws 0 =? 0)) (seq 0 T)). rewrite seq_length in *. auto. Qed.

(** forward row: cheapest subset of [l] of weight exactly [a];
    backward row: cheapest subset of [l] that fits on top of [a] *)
Definition Ftab (l : list nat) (row : list num) : Prop :=
  length row = cap + 1 /\
  forall a, a <= cap -> exists v, get row a = Some v /\ cmin (fun x => weight (Wl l) x = a) (Ml l) v.
Definition Btab (l : list nat) (row : list num) : Prop :=
  length row = cap + 1 /\
  forall a, a <= cap -> exists v, get row a = Some v /\ cmin (fun x => a + weight (Wl l) x <= cap) (Ml l) v.

Lemma Ftab_init : Ftab [] (n0 :: repeat PInf cap).
Proof.
  split; [cbn; rewrite repeat_length; lia|]. intros [|a] Ha; cbn [get nth_error].
  - exists n0; split; auto. apply cmin_nil; auto.
  - exists PInf; split; [apply get_repeat; lia|]. apply cmin_nil_none. cbn. lia.
Qed.
Lemma Btab_init : Btab [] (repeat n0 (cap + 1)).
Proof.
  split; [apply repeat_length|]. intros a Ha. exists n0. split; [apply get_repeat; lia|].
  apply cmin_nil; cbn; lia.
Qed.

Lemma cmin_last (al : list bool -> Prop) (al0 al1 : list bool -> Prop) l t v0 v1 :
  (forall x, length x = length l -> al (x ++ [false]) <-> al0 x) ->
  (forall x, length x = length l -> al (x ++ [true]) <-> al1 x) ->
  cmin al0 (Ml l) v0 -> cmin al1 (Ml l) v1 ->
  cmin al (Ml (l ++ [t])) (nmin v0 (nadd v1 (Fin (nth t ms 0%Qc)))).
Proof.
  intros H0 H1 C0 C1. unfold Ml in *. rewrite map_app. cbn [map].
  rewrite <- (nadd_0_r v0).
  assert (S0 : cmin (fun x => x = [false]) [nth t ms 0%Qc] n0).
  { cbn. split; [exists [false]; repeat split; cbn; qlra|]. intros r (x & _ & -> & ->). cbn; qlra. }
  assert (S1 : cmin (fun x => x = [true]) [nth t ms 0%Qc] (Fin (nth t ms 0%Qc))).
  { cbn. split; [exists [true]; repeat split; cbn; qlra|]. intros r (x & _ & -> & ->). cbn; qlra. }
  eapply cmin_ext; [|apply cmin_union; [apply (cmin_app _ _ _ _ _ _ C0 S0)|apply (cmin_app _ _ _ _ _ _ C1 S1)]].
  intros x L. rewrite app_length, map_length in L. cbn in L. cbn beta. rewrite map_length. split.
  - intros [(x1 & x2 & -> & L1 & A & ->)|(x1 & x2 & -> & L1 & A & ->)]; [apply H0|apply H1]; auto.
  - intros A.
    destruct (exists_last (l := x)) as (y & b & ->); [intros ->; cbn in L; lia|].
    rewrite app_length in L; cbn in L.
    destruct b.
    + right. exists y, [true]. repeat split; auto; [lia|]. apply H1; auto; lia.
    + left. exists y, [false]. repeat split; auto; [lia|]. apply H0; auto; lia.
Qed.

Lemma fwd_stage_ok l t w init tbl : shape (T + 1) (cap + 1) tbl -> t < T -> w = nth t ws 0 ->
  w <> 0 -> (t = 0 -> l = []) -> Ftab l init ->
  exists tbl' row, fwd_stage cap t w (Fin (nth t ms 0%Qc)) init tbl = Some tbl' /\
    shape (T + 1) (cap + 1) tbl' /\ (forall j, j <> t + 1 -> get tbl' j = get tbl j) /\
    get tbl' (t + 1) = Some row /\ Ftab (l ++ [t]) row.
Proof.
  intros HS Ht -> Hw Hl [Li HF]. unfold fwd_stage.
  match goal with |- context [for_up 0 (cap + 1) ?st0 ?bd] =>
    destruct (for_up_ind 0 (cap + 1) st0 bd (fun i tb => shape (T + 1) (cap + 1) tb /\
      (forall j, j <> t + 1 -> get tb j = get tbl j) /\
      forall a, a < i -> exists v, get2 tb (t + 1) a = Some v /\
        cmin (fun x => weight (Wl (l ++ [t])) x = a) (Ml (l ++ [t])) v)) as (tb & E & S & HJ & H) end.
  - lia.
  - split; auto. split; auto. intros; lia.
  - intros a tb Ha (S & HJ & H).
    destruct (HF a) as (x & Hx & Cx); [lia|].
    assert (A0 : forall x, length x = length l -> (weight (Wl (l ++ [t])) (x ++ [false]) = a <-> weight (Wl l) x = a)).
    { intros y L. unfold Wl. rewrite map_app, weight_app by (rewrite map_length; auto). cbn. lia. }
    assert (A1 : forall x, length x = length l ->
       (weight (Wl (l ++ [t])) (x ++ [true]) = a <-> (weight (Wl l) x + nth t ws 0 = a))).
    { intros y L. unfold Wl. rewrite map_app, weight_app by (rewrite map_length; auto). cbn. lia. }
    assert (STEP : forall v, cmin (fun x => weight (Wl (l ++ [t])) x = a) (Ml (l ++ [t])) v ->
      exists tb', set2 tb (t + 1) a v = Some tb' /\ shape (T + 1) (cap + 1) tb' /\
      (forall j, j <> t + 1 -> get tb' j = get tbl j) /\
      forall a', a' < a + 1 -> exists v, get2 tb' (t + 1) a' = Some v /\
        cmin (fun x => weight (Wl (l ++ [t])) x = a') (Ml (l ++ [t])) v).
    { intros v Cv. rewrite (set2_lt (T + 1) (cap + 1)) by (auto; lia).
      eexists; split; [reflexivity|]. split; [apply shape_upd2; auto|]. split.
      - intros j Hj. unfold upd2. destruct (get tb (t + 1)) as [r|] eqn:Er; [|apply HJ; auto].
        rewrite get_upd_ne by auto. apply HJ; auto.
      - intros a' Ha'. rewrite (get2_upd2 (T + 1) (cap + 1)) by (auto; lia).
        rewrite Nat.eqb_refl. cbn [andb]. destruct (Nat.eqb_spec a a') as [<-|Hn]; [eauto|].
        apply H; lia. }
    rewrite Hx; cbn [bind].
    destruct (Nat.leb_spec (nth t ws 0) a) as [Hle|Hgt]; cbn [andb].
    + destruct (HF (a - nth t ws 0)) as (y & Hy & Cy); [lia|].
      destruct (Nat.eqb_spec t 0) as [Ht0|Ht0]; cbn [andb negb].
      * destruct (Nat.eqb_spec a (nth t ws 0)) as [Ea|Ea]; cbn [negb].
        -- rewrite Hy; cbn [bind]. apply STEP.
           apply (cmin_last _ _ (fun x => weight (Wl l) x + nth t ws 0 = a)) with (2 := A1) (1 := A0); auto.
           eapply cmin_ext; [|exact Cy]. intros; cbn; lia.
        -- (* nothing selected so far: the other branch is unreachable *)
           apply STEP. replace x with (nmin x (nadd PInf (Fin (nth t ms 0%Qc)))).
           2:{ cbn. apply nmin_PInf_r. eapply cmin_notnan; eauto. }
           apply (cmin_last _ _ (fun x => weight (Wl l) x + nth t ws 0 = a)) with (2 := A1) (1 := A0); auto.
           apply cmin_impossible. intros z Lz. rewrite (Hl Ht0). cbn. lia.
      * rewrite Hy; cbn [bind]. apply STEP.
        apply (cmin_last _ _ (fun x => weight (Wl l) x + nth t ws 0 = a)) with (2 := A1) (1 := A0); auto.
        eapply cmin_ext; [|exact Cy]. intros; cbn; lia.
    + apply STEP. replace x with (nmin x (nadd PInf (Fin (nth t ms 0%Qc)))).
      2:{ cbn. apply nmin_PInf_r. eapply cmin_notnan; eauto. }
      apply (cmin_last _ _ (fun x => weight (Wl l) x + nth t ws 0 = a)) with (2 := A1) (1 := A0); auto.
      apply cmin_impossible. intros z Lz. lia.
  - destruct (get_lt tb (t + 1)) as [row Hr]; [destruct S; lia|].
    exists tb, row. split; [exact E|]. split; auto. split; auto. split; auto.
    split; [eapply shape_row; eauto|]. intros a Ha. destruct (H a) as (v & Hv & Cv); [lia|].
    exists v; split; auto. unfold get2 in Hv. rewrite Hr in Hv. exact Hv.
Qed.

Lemma bwd_stage_ok l t w init tbl : shape (T + 1) (cap + 1) tbl -> t < T -> w = nth t ws 0 ->
  Btab l init ->
  exists tbl' row, bwd_stage cap t w (Fin (nth t ms 0%Qc)) init tbl = Some tbl' /\
    shape (T + 1) (cap + 1) tbl' /\ (forall j, j <> t -> get tbl' j = get tbl j) /\
    get tbl' t = Some row /\ length row = cap + 1 /\ (0 < t -> Btab (t :: l) row).
Proof.
  intros HS Ht -> [Li HF]. unfold bwd_stage.
  match goal with |- context [for_up 0 (cap + 1) ?st0 ?bd] =>
    destruct (for_up_ind 0 (cap + 1) st0 bd (fun i tb => shape (T + 1) (cap + 1) tb /\
      (forall j, j <> t -> get tb j = get tbl j) /\
      forall a, 0 < t -> a < i -> exists v, get2 tb t a = Some v /\
        cmin (fun x => a + weight (Wl (t :: l)) x <= cap) (Ml (t :: l)) v)) as (tb & E & S & HJ & H) end.
  - lia.
  - split; auto. split; auto. intros; lia.
  - intros a tb Ha (S & HJ & H).
    destruct (HF a) as (x & Hx & Cx); [lia|].
    assert (STEP : forall v, (0 < t -> cmin (fun x => a + weight (Wl (t :: l)) x <= cap) (Ml (t :: l)) v) ->
      exists tb', set2 tb t a v = Some tb' /\ shape (T + 1) (cap + 1) tb' /\
      (forall j, j <> t -> get tb' j = get tbl j) /\
      forall a', 0 < t -> a' < a + 1 -> exists v, get2 tb' t a' = Some v /\
        cmin (fun x => a' + weight (Wl (t :: l)) x <= cap) (Ml (t :: l)) v).
    { intros v Cv. rewrite (set2_lt (T + 1) (cap + 1)) by (auto; lia).
      eexists; split; [reflexivity|]. split; [apply shape_upd2; auto|]. split.
      - intros j Hj. unfold upd2. destruct (get tb t) as [r|] eqn:Er; [|apply HJ; auto].
        rewrite get_upd_ne by auto. apply HJ; auto.
      - intros a' H0 Ha'. rewrite (get2_upd2 (T + 1) (cap + 1)) by (auto; lia).
        rewrite Nat.eqb_refl. cbn [andb]. destruct (Nat.eqb_spec a a') as [<-|Hn]; [eauto|].
        apply H; lia. }
    rewrite Hx; cbn [bind].
    destruct (Nat.ltb_spec 0 t) as [H0|H0]; cbn [andb].
    + replace ((a =? 0) && (t =? 0)) with false
        by (destruct (Nat.eqb_spec t 0); [lia|rewrite andb_false_r; auto]).
      rewrite orb_false_r.
      destruct (Nat.leb_spec (a + nth t ws 0) cap) as [Hle|Hgt].
      * destruct (HF (a + nth t ws 0)) as (y & Hy & Cy); [lia|]. rewrite Hy; cbn [bind].
        apply STEP. intros _. cbn [Ml map]. apply cmin_cons.
        -- eapply cmin_ext; [|exact Cy]. intros z _. unfold Wl; cbn [map weight]. lia.
        -- eapply cmin_ext; [|exact Cx]. intros z _. unfold Wl; cbn [map weight]. lia.
      * apply STEP. intros _.
        replace x with (nmin x (nadd PInf (Fin (nth t ms 0%Qc)))).
        2:{ cbn. apply nmin_PInf_r. eapply cmin_notnan; eauto. }
        cbn [Ml map]. apply cmin_cons.
        -- apply cmin_impossible. intros z _. unfold Wl; cbn [map weight]. lia.
        -- eapply cmin_ext; [|exact Cx]. intros z _. unfold Wl; cbn [map weight]. lia.
    + cbn [orb]. destruct ((a =? 0) && (t =? 0)) eqn:Eb.
      * apply andb_prop in Eb as [Ea _]. apply Nat.eqb_eq in Ea. subst a.
        destruct (HF (0 + nth t ws 0)) as (y & Hy & Cy); [apply Hcap; auto|]. rewrite Hy; cbn [bind].
        apply STEP. lia.
      * apply STEP. lia.
  - destruct (get_lt tb t) as [row Hr]; [destruct S; lia|].
    exists tb, row. split; [exact E|]. split; auto. split; auto. split; auto.
    assert (LR : length row = cap + 1) by (eapply shape_row; eauto).
    split; auto. intros H0. split; auto. intros a Ha. destruct (H a) as (v & Hv & Cv); [lia|lia|].
    exists v; split; auto. unfold get2 in Hv. rewrite Hr in Hv. exact Hv.
Qed.

Lemma get_ms t : t < T -> get (map Fin ms) t = Some (Fin (nth t ms 0%Qc)).
Proof. intros. rewrite get_map, (get_nth ms t 0%Qc) by lia. reflexivity. Qed.
Lemma get_ws t : t < T -> get ws t = Some (nth t ws 0).
Proof. intros. apply get_nth. lia. Qed.

Lemma forward_ok tbl : shape (T + 1) (cap + 1) tbl ->
  exists tbl', forward T cap nz (length nz) ws (map Fin ms) tbl = Some tbl' /\
    forall p t, get nz p = Some t -> exists row, get tbl' t = Some row /\ Ftab (firstn p nz) row.
Proof.
  intros HS. unfold forward. set (init0 := n0 :: repeat PInf cap).
  assert (LI : length init0 = cap + 1) by (unfold init0; cbn; rewrite repeat_length; lia).
  destruct nz_nonempty as (z0 & Hz0). pose proof (nz_get _ _ Hz0) as [Lz0 _].
  rewrite set_lt by (destruct HS; lia). cbn [bind]. rewrite Hz0; cbn [bind].
  assert (INIT : exists tb, (if z0 =? 0 then Some (upd tbl 0 init0)
      else for_up 0 z0 (upd tbl 0 init0) (fun tbl j => set tbl (j + 1) init0)) = Some tb /\
      shape (T + 1) (cap + 1) tb /\ get tb z0 = Some init0).
  { assert (S0 : shape (T + 1) (cap + 1) (upd tbl 0 init0)) by (apply shape_upd; auto).
    destruct (Nat.eqb_spec z0 0) as [->|Hn].
    - eexists; split; [reflexivity|]. split; auto. apply get_upd_eq. destruct HS; lia.
    - destruct (fill_up_ok (upd tbl 0 init0) 0 z0 init0) as (tb & E & L & H); [lia|rewrite upd_length; destruct HS; lia|].
      exists tb. split; [exact E|]. split.
      + apply shape_get_ext; [rewrite L, upd_length; destruct HS; auto|]. intros i r Hi. rewrite H in Hi.
        destruct ((0 <? i) && (i <=? z0)); [congruence|]. eapply shape_row; eauto.
      + rewrite H. destruct (Nat.ltb_spec 0 z0), (Nat.leb_spec z0 z0); cbn; auto; lia. }
  destruct INIT as (tb0 & -> & S0 & G0). cbn [bind].
  match goal with |- context [for_up 0 (length nz) ?st0 ?bd] =>
    destruct (for_up_ind 0 (length nz) st0 bd (fun l st => shape (T + 1) (cap + 1) (fst st) /\
      Ftab (firstn l nz) (snd st) /\
      forall p t, p <= l -> get nz p = Some t -> exists row, get (fst st) t = Some row /\ Ftab (firstn p nz) row))
      as ([tb init] & E & _ & _ & H) end.
  - lia.
  - cbn [fst snd]. split; auto. split; [apply Ftab_init|].
    intros p t Hp Ht. assert (p = 0) by lia. subst p. rewrite Hz0 in Ht. injection Ht as <-.
    exists init0. split; auto. apply Ftab_init.
  - intros l [tb init] Hl (S & HI & HR). cbn [fst snd] in *.
    destruct (get_lt nz l) as [t Ht]; [lia|]. rewrite Ht; cbn [bind].
    destruct (nz_get _ _ Ht) as [Lt Wt]. rewrite get_ws, get_ms by auto. cbn [bind].
    destruct (fwd_stage_ok (firstn l nz) t (nth t ws 0) init tb) as (tb1 & row & E1 & S1 & J1 & R1 & F1); auto.
    { intros ->. destruct l as [|l]; auto. exfalso.
      assert (z0 < 0) by (apply (nz_incr 0 (Datatypes.S l)); auto; lia). lia. }
    rewrite E1; cbn [bind]. rewrite R1; cbn [bind].
    rewrite <- (firstn_succ _ _ _ Ht) in F1.
    assert (LR : length row = cap + 1) by (destruct F1; auto).
    (* rows written so far stay *)
    assert (OLD : forall p t', p <= l -> get nz p = Some t' -> t' <= t).
    { intros p t' Hp Ht'. destruct (Nat.eq_dec p l) as [->|]; [assert (t' = t) by congruence; lia|].
      assert (t' < t) by (apply (nz_incr p l); auto; lia). lia. }
    assert (FILL : forall hi, t + 1 <= hi -> hi <= T ->
      (forall t', get nz (l + 1) = Some t' -> t' <= hi) ->
      exists tb2, for_up (t + 1) hi tb1 (fun tbl j => set tbl (j + 1) row) = Some tb2 /\
        shape (T + 1) (cap + 1) tb2 /\
        forall p t', p <= l + 1 -> get nz p = Some t' -> exists row, get tb2 t' = Some row /\ Ftab (firstn p nz) row).
    { intros hi H1 H2 H3. destruct (fill_up_ok tb1 (t + 1) hi row) as (tb2 & E2 & L2 & G2); [lia|destruct S1; lia|].
      exists tb2. split; [exact E2|]. split.
      - apply shape_get_ext; [rewrite L2; destruct S1; auto|]. intros i r Hi. rewrite G2 in Hi.
        destruct ((t + 1 <? i) && (i <=? hi)); [congruence|]. eapply shape_row; eauto.
      - intros p t' Hp Ht'. destruct (Nat.eq_dec p (l + 1)) as [->|Hn].
        + exists row. split; [|exact F1]. rewrite G2.
          assert (t < t') by (apply (nz_incr l (l + 1)); auto; lia). specialize (H3 t' Ht').
          destruct (Nat.ltb_spec (t + 1) t'), (Nat.leb_spec t' hi); cbn [andb]; auto; try lia.
          replace t' with (t + 1) by lia. auto.
        + destruct (HR p t') as (r & Hr & Fr); auto; [lia|]. exists r. split; auto.
          pose proof (OLD p t' ltac:(lia) Ht'). rewrite G2.
          destruct (Nat.ltb_spec (t + 1) t'); [lia|]. cbn [andb]. rewrite J1 by lia. auto. }
    assert (NOFILL : (forall t', get nz (l + 1) = Some t' -> t' = t + 1) ->
        forall p t', p <= l + 1 -> get nz p = Some t' -> exists row, get tb1 t' = Some row /\ Ftab (firstn p nz) row).
    { intros H3 p t' Hp Ht'. destruct (Nat.eq_dec p (l + 1)) as [->|Hn].
      - rewrite (H3 t' Ht'). exists row; split; auto.
      - destruct (HR p t') as (r & Hr & Fr); auto; [lia|]. exists r. split; auto.
        pose proof (OLD p t' ltac:(lia) Ht'). rewrite J1 by lia. auto. }
    destruct (Nat.eqb_spec (length nz) T) as [Hfull|Hnf].
    { cbn [bind]. eexists; split; [reflexivity|]. cbn [fst snd]. split; auto. split; auto.
      apply NOFILL. intros t' Ht'. rewrite (nz_full _ _ Hfull Ht), (nz_full _ _ Hfull Ht'). auto. }
    rewrite nz_bs. cbn [bind].
    destruct (existsb (Nat.eqb (t + 1)) nz) eqn:Ef.
    { cbn [bind]. eexists; split; [reflexivity|]. cbn [fst snd]. split; auto. split; auto.
      apply NOFILL. intros t' Ht'. apply existsb_In in Ef. apply In_nth_error in Ef as [q Hq].
      assert (t < t') by (apply (nz_incr l (l + 1)); auto; lia).
      destruct (lt_eq_lt_dec q (l + 1)) as [[Hq1|Hq1]|Hq1].
      - assert (t + 1 <= t) by (apply (OLD q); auto; lia). lia.
      - subst q. unfold get in Ht'; congruence.
      - assert (t' < t + 1) by (apply (nz_incr (l + 1) q); auto). lia. }
    assert (Hnot : ~ In (t + 1) nz) by (rewrite <- existsb_In; congruence).
    destruct (get_lt nz (length nz - 1)) as [last Hlast]; [lia|].
    assert (Hback : back nz = Some last).
    { unfold back. destruct (length nz) eqn:En; [lia|]. replace (Datatypes.S n - 1) with n in Hlast by lia. auto. }
    rewrite Hback; cbn [bind]. destruct (nz_get _ _ Hlast) as [Llast _].
    destruct (Nat.eq_dec l (length nz - 1)) as [Hend|Hmid].
    + (* last participating team *)
      assert (last = t) by (rewrite Hend in Ht; congruence). subst last.
      assert (NON : forall t', get nz (l + 1) = Some t' -> False).
      { intros t' Ht'. apply get_Some_lt in Ht'. lia. }
      destruct (Nat.leb_spec t (t + 1)); [|lia]. cbn [andb].
      destruct (Nat.ltb_spec (t + 1) T) as [HT|HT].
      * destruct (FILL T) as (tb2 & E2 & S2 & HH2); [lia|lia|intros t' Ht'; exfalso; eauto|].
        rewrite E2; cbn [bind]. eexists; split; [reflexivity|]. cbn [fst snd]. auto.
      * destruct (Nat.ltb_spec (t + 1) t); [lia|]. cbn [bind].
        eexists; split; [reflexivity|]. cbn [fst snd]. split; auto. split; auto.
        apply NOFILL. intros t' Ht'. exfalso; eauto.
    + destruct (get_lt nz (l + 1)) as [t' Ht']; [lia|].
      assert (Htt' : t < t') by (apply (nz_incr l (l + 1)); auto; lia).
      assert (t' <> t + 1) by (intros ->; apply Hnot; eapply nth_error_In; eauto).
      assert (t' <= last).
      { destruct (Nat.eq_dec (l + 1) (length nz - 1)) as [Hq|Hq].
        - rewrite Hq in Ht'. assert (t' = last) by congruence. lia.
        - assert (t' < last) by (apply (nz_incr (l + 1) (length nz - 1)); auto; lia). lia. }
      destruct (Nat.leb_spec last (t + 1)); [lia|]. cbn [andb].
      destruct (Nat.ltb_spec (t + 1) last); [|lia]. rewrite nz_ub; cbn [bind].
      rewrite (first_greater_at nz t (l + 1) t'); auto.
      2:{ intros i a Hi Ha. apply (OLD i); auto; lia. }
      rewrite Ht'; cbn [bind]. destruct (nz_get _ _ Ht') as [Lt' _].
      destruct (FILL t') as (tb2 & E2 & S2 & HH2); [lia|lia|intros t'' Ht''; assert (t'' = t') by congruence; lia|].
      rewrite E2; cbn [bind]. eexists; split; [reflexivity|]. cbn [fst snd]. auto.
  - cbn [fst snd] in H. rewrite E; cbn [bind]. exists tb. split; [reflexivity|].
    intros p t Ht. apply H; auto. apply get_Some_lt in Ht. lia.
Qed.

Lemma backward_ok tbl : shape (T + 1) (cap + 1) tbl ->
  exists tbl', backward T cap nz (length nz) ws (map Fin ms) tbl = Some tbl' /\
    forall p t, get nz p = Some t -> exists row, get tbl' (t + 1) = Some row /\ Btab (skipn (p + 1) nz) row.
Proof.
  intros HS. unfold backward. set (init0 := repeat n0 (cap + 1)).
  assert (LI : length init0 = cap + 1) by (apply repeat_length).
  destruct nz_nonempty as (z0 & Hz0). pose proof (nz_get _ _ Hz0) as [Lz0 _].
  pose proof (get_Some_lt _ _ _ Hz0) as Lnz. pose proof nz_length as LnzT.
  rewrite set_lt by (destruct HS; lia). cbn [bind].
  destruct (get_lt nz (length nz - 1)) as [last Hlast]; [lia|].
  assert (Hback : match length nz with O => None | Datatypes.S k => get nz k end = Some last).
  { destruct (length nz) eqn:En; [lia|]. replace (Datatypes.S n - 1) with n in Hlast by lia. auto. }
  rewrite Hback; cbn [bind]. destruct (nz_get _ _ Hlast) as [Llast _].
  assert (Hz0l : z0 <= last).
  { destruct (Nat.eq_dec 0 (length nz - 1)) as [Hq|Hq].
    - rewrite <- Hq in Hlast. assert (z0 = last) by congruence. lia.
    - assert (z0 < last) by (apply (nz_incr 0 (length nz - 1)); auto; lia). lia. }
  assert (INIT : exists tb, (if last + 1 =? T then Some (upd tbl T init0)
      else z0 <- get nz 0 ;; for_down (z0 + 1) T (upd tbl T init0) (fun tbl j => set tbl j init0)) = Some tb /\
      shape (T + 1) (cap + 1) tb /\ get tb (last + 1) = Some init0).
  { assert (S0 : shape (T + 1) (cap + 1) (upd tbl T init0)) by (apply shape_upd; auto).
    destruct (Nat.eqb_spec (last + 1) T) as [->|Hn].
    - eexists; split; [reflexivity|]. split; auto. apply get_upd_eq. destruct HS; lia.
    - rewrite Hz0; cbn [bind].
      destruct (fill_down_ok (upd tbl T init0) (z0 + 1) T init0) as (tb & E & L & H); [lia|rewrite upd_length; destruct HS; lia|].
      exists tb. split; [exact E|]. split.
      + apply shape_get_ext; [rewrite L, upd_length; destruct HS; auto|]. intros i r Hi. rewrite H in Hi.
        destruct ((z0 + 1 <=? i) && (i <? T)); [congruence|]. eapply shape_row; eauto.
      + rewrite H. destruct (Nat.leb_spec (z0 + 1) (last + 1)), (Nat.ltb_spec (last + 1) T); cbn; auto; lia. }
  destruct INIT as (tb0 & -> & S0 & G0). cbn [bind].
  match goal with |- context [for_down 0 (length nz) ?st0 ?bd] =>
    destruct (for_down_ind 0 (length nz) st0 bd (fun l st => shape (T + 1) (cap + 1) (fst st) /\
      (0 < l -> Btab (skipn l nz) (snd st)) /\
      forall p t, l <= p + 1 -> get nz p = Some t -> exists row, get (fst st) (t + 1) = Some row /\ Btab (skipn (p + 1) nz) row))
      as ([tb init] & E & _ & _ & H) end.
  - lia.
  - cbn [fst snd]. split; auto. rewrite skipn_all. split; [intros; apply Btab_init|].
    intros p t Hp Ht. pose proof (get_Some_lt _ _ _ Ht). assert (p = length nz - 1) by lia. subst p.
    assert (t = last) by congruence. subst t. exists init0. split; auto.
    rewrite skipn_all2 by lia. apply Btab_init.
  - intros l [tb init] Hl (S & HI & HR). cbn [fst snd] in *. specialize (HI ltac:(lia)).
    destruct (get_lt nz l) as [t Ht]; [lia|]. rewrite Ht; cbn [bind].
    destruct (nz_get _ _ Ht) as [Lt Wt]. rewrite get_ws, get_ms by auto. cbn [bind].
    destruct (bwd_stage_ok (skipn (l + 1) nz) t (nth t ws 0) init tb) as (tb1 & row & E1 & S1 & J1 & R1 & LR & F1); auto.
    rewrite E1; cbn [bind]. rewrite R1; cbn [bind].
    rewrite <- (skipn_succ _ _ _ Ht) in F1.
    assert (LATE : forall p t', l <= p -> get nz p = Some t' -> t <= t').
    { intros p t' Hp Ht'. destruct (Nat.eq_dec p l) as [->|]; [assert (t' = t) by congruence; lia|].
      assert (t < t') by (apply (nz_incr l p); auto; lia). lia. }
    assert (HB : 0 < l -> Btab (skipn l nz) row).
    { intros H0. apply F1. assert (z0 < t) by (apply (nz_incr 0 l); auto). lia. }
    assert (NOFILL : (forall t', 0 < l -> get nz (l - 1) = Some t' -> t' + 1 = t) ->
      forall p t', l <= p + 1 -> get nz p = Some t' -> exists row, get tb1 (t' + 1) = Some row /\ Btab (skipn (p + 1) nz) row).
    { intros H3 p t' Hp Ht'. destruct (Nat.eq_dec (p + 1) l) as [Hq|Hn].
      - assert (E0 : p = l - 1) by lia. rewrite E0 in Ht'. rewrite (H3 t' ltac:(lia) Ht'). exists row; split; auto.
        rewrite Hq. apply HB; lia.
      - destruct (HR p t') as (r & Hr & Fr); auto; [lia|]. exists r. split; auto.
        pose proof (LATE p t' ltac:(lia) Ht'). rewrite J1 by lia. auto. }
    assert (FILL : forall lo, lo <= t ->
      (forall t', 0 < l -> get nz (l - 1) = Some t' -> lo <= t' + 1) ->
      exists tb2, for_down lo t tb1 (fun tbl j => set tbl j row) = Some tb2 /\
        shape (T + 1) (cap + 1) tb2 /\
        forall p t', l <= p + 1 -> get nz p = Some t' -> exists row, get tb2 (t' + 1) = Some row /\ Btab (skipn (p + 1) nz) row).
    { intros lo H1 H3. destruct (fill_down_ok tb1 lo t row) as (tb2 & E2 & L2 & G2); [lia|destruct S1; lia|].
      exists tb2. split; [exact E2|]. split.
      - apply shape_get_ext; [rewrite L2; destruct S1; auto|]. intros i r Hi. rewrite G2 in Hi.
        destruct ((lo <=? i) && (i <? t)); [congruence|]. eapply shape_row; eauto.
      - intros p t' Hp Ht'. destruct (Nat.eq_dec (p + 1) l) as [Hq|Hn].
        + exists row. split; [|rewrite Hq; apply HB; lia]. rewrite G2.
          assert (t' < t) by (apply (nz_incr p l); auto; lia).
          assert (E0 : p = l - 1) by lia. rewrite E0 in Ht'. specialize (H3 t' ltac:(lia) Ht').
          destruct (Nat.leb_spec lo (t' + 1)), (Nat.ltb_spec (t' + 1) t); cbn [andb]; auto; try lia.
          replace (t' + 1) with t by lia. auto.
        + destruct (HR p t') as (r & Hr & Fr); auto; [lia|]. exists r. split; auto.
          pose proof (LATE p t' ltac:(lia) Ht'). rewrite G2.
          destruct (Nat.ltb_spec (t' + 1) t); [lia|]. rewrite andb_false_r. rewrite J1 by lia. auto. }
    destruct (Nat.eqb_spec (length nz - 1) T) as [Hx|Hx]; [lia|].
    destruct t as [|t1].
    { cbn [bind]. eexists; split; [reflexivity|]. cbn [fst snd]. split; auto.
      assert (l = 0).
      { destruct l as [|l]; auto. assert (z0 < 0) by (apply (nz_incr 0 (Datatypes.S l)); auto; lia). lia. }
      split; [lia|]. apply NOFILL. lia. }
    rewrite nz_bs; cbn [bind].
    destruct (existsb (Nat.eqb t1) nz) eqn:Ef.
    { cbn [bind]. eexists; split; [reflexivity|]. cbn [fst snd]. split; auto. split; auto.
      apply NOFILL. intros t' H0 Ht'. apply existsb_In in Ef. apply In_nth_error in Ef as [q Hq].
      assert (t' < Datatypes.S t1) by (apply (nz_incr (l - 1) l); auto; lia).
      destruct (lt_eq_lt_dec q (l - 1)) as [[Hq1|Hq1]|Hq1].
      - assert (t1 < t') by (apply (nz_incr q (l - 1)); auto; lia). lia.
      - subst q. assert (t' = t1) by (unfold get in *; congruence). lia.
      - pose proof (LATE q t1 ltac:(lia) Hq). lia. }
    assert (Hnot : ~ In t1 nz) by (rewrite <- existsb_In; congruence).
    rewrite Hz0; cbn [bind]. replace (t1 + 1) with (Datatypes.S t1) by lia.
    destruct (Nat.leb_spec t1 z0) as [Hle|Hgt].
    + destruct (FILL 0) as (tb2 & E2 & S2 & HH2); [lia|lia|].
      rewrite E2; cbn [bind]. eexists; split; [reflexivity|]. cbn [fst snd]. auto.
    + assert (0 < l).
      { destruct l as [|l]; [|lia]. assert (z0 = Datatypes.S t1) by congruence. lia. }
      destruct (get_lt nz (l - 1)) as [t' Ht']; [lia|].
      assert (t' < Datatypes.S t1) by (apply (nz_incr (l - 1) l); auto; lia).
      assert (t' <> t1) by (intros ->; apply Hnot; eapply nth_error_In; eauto).
      rewrite nz_ub; cbn [bind]. rewrite (first_greater_at nz t1 l (Datatypes.S t1)); auto.
      2:{ intros i a Hi Ha. destruct (Nat.eq_dec i (l - 1)) as [->|Hn]; [assert (a = t') by congruence; lia|].
          assert (a < t') by (apply (nz_incr i (l - 1)); auto; lia). lia. }
      replace (match l with 0 => None | Datatypes.S p => get nz p end) with (Some t').
      2:{ destruct l as [|l']; [lia|]. replace (Datatypes.S l' - 1) with l' in Ht' by lia. auto. }
      cbn [bind].
      destruct (FILL (t' + 1)) as (tb2 & E2 & S2 & HH2); [lia|intros t'' _ Ht''; assert (t'' = t') by congruence; lia|].
      rewrite E2; cbn [bind]. eexists; split; [reflexivity|]. cbn [fst snd]. auto.
  - cbn [fst snd] in H. rewrite E; cbn [bind]. exists tb. split; [reflexivity|].
    intros p t Ht. apply H; auto; lia.
Qed.

(** ** Combining the two passes *)
Lemma min_element_nmins l : l <> [] -> Forall notnan l -> min_element l = Some (nmins l).
Proof.
  destruct l as [|a l]; [congruence|]. intros _ H. inversion H; subst. cbn [min_element nmins].
  rewrite nmins_fold_left; auto.
Qed.

Lemma cmin_split l1 l2 (f b : nat -> num) (extra n : nat) :
  (forall a, a < n -> cmin (fun x => weight (Wl l1) x = a) (Ml l1) (f a)) ->
  (forall a, a < n -> cmin (fun x => a + extra + weight (Wl l2) x <= cap) (Ml l2) (b a)) ->
  (forall x, weight (Wl l1) x + extra <= cap -> weight (Wl l1) x < n) ->
  cmin (fun x => weight (Wl (l1 ++ l2)) x + extra <= cap) (Ml (l1 ++ l2))
       (nmins (map (fun a => nadd (f a) (b a)) (seq 0 n))).
Proof.
  intros HF HB Hn. unfold Ml, Wl in *. rewrite !map_app.
  eapply cmin_ext; [|apply (cmin_many (seq 0 n) (fun a x => exists x1 x2, x = x1 ++ x2 /\
     length x1 = length (map (fun t => nth t ms 0%Qc) l1) /\ weight (map (fun t => nth t ws 0) l1) x1 = a /\
     a + extra + weight (map (fun t => nth t ws 0) l2) x2 <= cap))].
  2:{ intros a Ha. apply in_seq in Ha. apply (cmin_app (fun x => weight (map (fun t => nth t ws 0) l1) x = a)
        (fun x => a + extra + weight (map (fun t => nth t ws 0) l2) x <= cap)); [apply HF|apply HB]; lia. }
  intros x L. cbn beta. rewrite app_length, !map_length in L. rewrite map_length. split.
  - intros (a & Ha & x1 & x2 & -> & L1 & Wa & Wb).
    rewrite weight_app by (rewrite map_length; auto). lia.
  - intros Hx. assert (E : x = firstn (length l1) x ++ skipn (length l1) x) by (symmetry; apply firstn_skipn).
    assert (L1 : length (firstn (length l1) x) = length l1) by (rewrite firstn_length; lia).
    rewrite E, weight_app in Hx by (rewrite map_length; auto).
    exists (weight (map (fun t => nth t ws 0) l1) (firstn (length l1) x)). split.
    + apply in_seq. split; [lia|]. apply Hn. lia.
    + exists (firstn (length l1) x), (skipn (length l1) x). repeat split; auto. lia.
Qed.

Lemma Ftab_nth l row a : Ftab l row -> a <= cap ->
  get row a = Some (nth a row n0) /\ cmin (fun x => weight (Wl l) x = a) (Ml l) (nth a row n0).
Proof.
  intros [L H] Ha. destruct (H a Ha) as (v & Hv & Cv).
  assert (nth a row n0 = v) by (apply nth_error_nth; auto). subst v. auto.
Qed.
Lemma Btab_nth l row a : Btab l row -> a <= cap ->
  get row a = Some (nth a row n0) /\ cmin (fun x => a + weight (Wl l) x <= cap) (Ml l) (nth a row n0).
Proof.
  intros [L H] Ha. destruct (H a Ha) as (v & Hv & Cv).
  assert (nth a row n0 = v) by (apply nth_error_nth; auto). subst v. auto.
Qed.
Lemma weight_zero wl k : weight wl (repeat false k) = 0.
Proof. revert k; induction wl as [|a wl IH]; intros [|k]; cbn; auto. Qed.
Lemma fits_Fin l extra v : extra <= cap -> cmin (fun x => weight (Wl l) x + extra <= cap) (Ml l) v ->
  exists q, v = Fin q.
Proof.
  intros He H. destruct v as [q| | |]; cbn in H; try tauto; [eauto|].
  exfalso. apply (H (total (Ml l) (repeat false (length (Ml l))))).
  exists (repeat false (length (Ml l))). rewrite repeat_length, weight_zero. repeat split; auto.
Qed.
Lemma notnan_value v w : value v -> value w -> notnan (nadd v w).
Proof. destruct v, w; cbn; try tauto; discriminate. Qed.

Lemma path_metrics_ok l1 l2 t fwd bwd rf rb :
  get fwd t = Some rf -> Ftab l1 rf -> get bwd (t + 1) = Some rb -> Btab l2 rb ->
  t < T -> (t = 0 -> l1 = []) ->
  exists solid dash v1 v0,
    path_metrics cap t (nth t ws 0) (Fin (nth t ms 0%Qc)) fwd bwd = Some (solid, dash) /\
    min_element solid = Some (nadd v1 (Fin (nth t ms 0%Qc))) /\ min_element dash = Some v0 /\
    cmin (fun x => weight (Wl (l1 ++ l2)) x + nth t ws 0 <= cap) (Ml (l1 ++ l2)) v1 /\
    cmin (fun x => weight (Wl (l1 ++ l2)) x + 0 <= cap) (Ml (l1 ++ l2)) v0.
Proof.
  intros Hf HF Hb HB Ht H0. set (m := nth t ms 0%Qc). set (w := nth t ws 0).
  assert (Hw : w <= cap) by (apply Hcap; auto).
  unfold path_metrics. destruct (Nat.eqb_spec t 0) as [E0|E0].
  - subst t. specialize (H0 eq_refl). subst l1. unfold get2. rewrite Hf, Hb; cbn [bind].
    destruct (Ftab_nth _ _ 0 HF) as [G1 C1]; [lia|]. destruct (Btab_nth _ _ w HB) as [G2 C2]; [lia|].
    destruct (Btab_nth _ _ 0 HB) as [G3 C3]; [lia|]. rewrite G1, G2, G3; cbn [bind].
    assert (nth 0 rf n0 = n0).
    { eapply cmin_unique; [exact C1|]. cbn [Ml map]. apply cmin_nil. reflexivity. }
    rewrite H. rewrite !nadd_0_l.
    do 4 eexists. split; [reflexivity|]. split; [reflexivity|]. split; [reflexivity|]. cbn [app].
    split; (eapply cmin_ext; [|eassumption]); intros; cbn; lia.
  - set (f := fun i => nth i rf n0). set (b := fun i => nth i rb n0).
    match goal with |- context [for_up 0 (cap + 1) ?st0 ?bd] =>
      destruct (for_up_ind 0 (cap + 1) st0 bd (fun i st =>
        st = (map (fun a => nadd (nadd (f a) (b (a + w))) (Fin m)) (seq 0 (Nat.min i (cap + 1 - w))),
              map (fun a => nadd (f a) (b a)) (seq 0 i)))) as (st & E & ->) end.
    + lia.
    + reflexivity.
    + intros i st Hi ->. unfold get2. rewrite Hf, Hb; cbn [bind].
      destruct (Ftab_nth _ _ i HF) as [G1 C1]; [lia|]. destruct (Btab_nth _ _ i HB) as [G3 C3]; [lia|].
      destruct (Nat.leb_spec (i + w) cap) as [Hle|Hgt].
      * destruct (Btab_nth _ _ (i + w) HB) as [G2 C2]; [lia|]. rewrite G1, G2, G3; cbn [bind].
        eexists; split; [reflexivity|]. replace (Nat.min (i + 1) (cap + 1 - w)) with (S i) by lia.
        replace (Nat.min i (cap + 1 - w)) with i by lia. replace (i + 1) with (S i) by lia.
        rewrite !seq_S, !map_app. reflexivity.
      * cbn [bind]. rewrite G1, G3; cbn [bind]. eexists; split; [reflexivity|].
        replace (Nat.min (i + 1) (cap + 1 - w)) with (Nat.min i (cap + 1 - w)) by lia.
        replace (i + 1) with (S i) by lia. rewrite (seq_S i), !map_app. reflexivity.
    + replace (Nat.min (cap + 1) (cap + 1 - w)) with (cap + 1 - w) in E by lia.
      assert (NF : forall a, a <= cap -> value (f a)).
      { intros a Ha. eapply cmin_value. apply (Ftab_nth _ _ a HF); auto. }
      assert (NB : forall a, a <= cap -> value (b a)).
      { intros a Ha. eapply cmin_value. apply (Btab_nth _ _ a HB); auto. }
      do 2 eexists. exists (nmins (map (fun a => nadd (f a) (b (a + w))) (seq 0 (cap + 1 - w)))).
      exists (nmins (map (fun a => nadd (f a) (b a)) (seq 0 (cap + 1)))).
      split; [exact E|].
      split; [|split; [|split]].
      * rewrite min_element_nmins.
        -- f_equal. rewrite <- (map_map (fun a => nadd (f a) (b (a + w))) (fun v => nadd v (Fin m))).
           apply nmins_shift_num.
           apply Forall_map, Forall_forall. intros a Ha. apply in_seq in Ha.
           apply notnan_value; [apply NF|apply NB]; lia.
        -- intros X. apply map_eq_nil in X. apply (f_equal (@length _)) in X. rewrite seq_length in X. cbn in X. lia.
        -- apply Forall_map, Forall_forall. intros a Ha. apply in_seq in Ha.
           apply notnan_nadd_Fin, notnan_value; [apply NF|apply NB]; lia.
      * apply min_element_nmins.
        -- intros X. apply map_eq_nil in X. apply (f_equal (@length _)) in X. rewrite seq_length in X. cbn in X. lia.
        -- apply Forall_map, Forall_forall. intros a Ha. apply in_seq in Ha.
           apply notnan_value; [apply NF|apply NB]; lia.
      * apply (cmin_split l1 l2 f (fun a => b (a + w)) w (cap + 1 - w)).
        -- intros a Ha. refine (proj2 (Ftab_nth _ _ a HF _)). lia.
        -- intros a Ha. refine (proj2 (Btab_nth _ _ (a + w) HB _)). lia.
        -- intros x Hx. lia.
      * apply (cmin_split l1 l2 f b 0 (cap + 1)).
        -- intros a Ha. refine (proj2 (Ftab_nth _ _ a HF _)). lia.
        -- intros a Ha. eapply cmin_ext; [|refine (proj2 (Btab_nth _ _ a HB _)); lia]. intros x Lx; cbn beta. rewrite Nat.add_0_r. reflexivity.
        -- intros x Hx. lia.
Qed.

Lemma within_message p t v1 v0 : get nz p = Some t ->
  cmin (fun x => weight (Wl (remove_at p nz)) x + nth t ws 0 <= cap) (Ml (remove_at p nz)) v1 ->
  cmin (fun x => weight (Wl (remove_at p nz)) x + 0 <= cap) (Ml (remove_at p nz)) v0 ->
  minsum_message (within (Wl nz) cap) (Ml nz) p (nsub v1 v0).
Proof.
  intros Hp C1 C0. pose proof (get_Some_lt _ _ _ Hp) as Lp.
  assert (Np : nth p (Wl nz) 0 = nth t ws 0).
  { unfold Wl. apply nth_error_nth. apply nth_error_map_nth with (f := fun t => nth t ws 0). auto. }
  exists v1, v0. split; [|split; [|reflexivity]].
  - eapply best_iff; [unfold Ml; rewrite map_length; auto| |unfold Ml; rewrite remove_at_map; exact C1].
    intros y Ly. unfold Ml in Ly. rewrite map_length in Ly. unfold within.
    rewrite weight_insert by (unfold Wl; rewrite map_length; auto). rewrite Np.
    unfold Wl. rewrite remove_at_map. reflexivity.
  - eapply best_iff; [unfold Ml; rewrite map_length; auto| |unfold Ml; rewrite remove_at_map; exact C0].
    intros y Ly. unfold Ml in Ly. rewrite map_length in Ly. unfold within.
    rewrite weight_insert by (unfold Wl; rewrite map_length; auto).
    unfold Wl. rewrite remove_at_map. reflexivity.
Qed.

Lemma department_ok out : length out = T ->
  exists out', department_update T cap nz (length nz) ws (map Fin ms) out = Some out' /\
    length out' = T /\
    (forall p t, get nz p = Some t -> exists q, get out' t = Some (Fin q) /\
       minsum_message (within (Wl nz) cap) (Ml nz) p (Fin q)) /\
    (forall t, t < T -> ~ In t nz -> get out' t = Some n0).
Proof.
  intros HO. unfold department_update.
  assert (S0 : shape (T + 1) (cap + 1) (repeat (repeat n0 (cap + 1)) (T + 1))) by apply shape_repeat.
  destruct (forward_ok _ S0) as (fwd & EF & HF). destruct (backward_ok _ S0) as (bwd & EB & HB).
  rewrite EF, EB; cbn [bind]. unfold extrinsic_row. rewrite HW.
  match goal with |- context [for_up 0 T ?st0 ?bd] =>
    destruct (for_up_ind 0 T st0 bd (fun i o => length o = T /\
      (forall p t, t < i -> get nz p = Some t -> exists q, get o t = Some (Fin q) /\
         minsum_message (within (Wl nz) cap) (Ml nz) p (Fin q)) /\
      (forall t, t < i -> ~ In t nz -> get o t = Some n0))) as (o & E & L & H1 & H2) end.
  - lia.
  - split; auto. split; intros; lia.
  - intros t o Ht (L & H1 & H2). rewrite get_ws by lia. cbn [bind].
    destruct (Nat.eqb_spec (nth t ws 0) 0) as [Ez|Ez].
    + rewrite set_lt by lia. eexists; split; [reflexivity|]. rewrite upd_length. split; auto. split.
      * intros p t' Ht' Hp. destruct (nz_get _ _ Hp) as [_ Hw]. rewrite get_upd by lia.
        destruct (Nat.eqb_spec t t') as [<-|Hn]; [congruence|]. apply H1; auto; lia.
      * intros t' Ht' Hni. rewrite get_upd by lia. destruct (Nat.eqb_spec t t') as [<-|Hn]; auto. apply H2; auto; lia.
    + rewrite get_ms by lia. cbn [bind].
      assert (Hin : In t nz) by (apply nz_In; split; auto; lia).
      apply In_nth_error in Hin as [p Hp].
      destruct (HF p t Hp) as (rf & Grf & Trf). destruct (HB p t Hp) as (rb & Grb & Trb).
      destruct (path_metrics_ok (firstn p nz) (skipn (p + 1) nz) t fwd bwd rf rb) as (sl & ds & v1 & v0 & EP & ES & ED & C1 & C0); auto; [lia| |].
      { intros ->. destruct p as [|p]; auto. destruct nz_nonempty as (z0 & Hz0).
        assert (z0 < 0) by (apply (nz_incr 0 (S p)); auto; lia). lia. }
      rewrite EP; cbn [bind]. rewrite ES, ED; cbn [bind]. rewrite set_lt by lia.
      replace (firstn p nz ++ skipn (p + 1) nz) with (remove_at p nz) in C1, C0
        by (rewrite remove_at_split; do 2 f_equal; lia).
      destruct (fits_Fin _ _ _ (Hcap t ltac:(lia)) C1) as [q1 ->].
      destruct (fits_Fin _ _ _ (Nat.le_0_l cap) C0) as [q0 ->].
      assert (EV : nsub (nsub (nadd (Fin q1) (Fin (nth t ms 0%Qc))) (Fin q0)) (Fin (nth t ms 0%Qc)) = Fin (q1 - q0)%Qc).
      { cbn [nadd nsub nopp]. f_equal. qlra. }
      rewrite EV. eexists; split; [reflexivity|]. rewrite upd_length. split; auto. split.
      * intros p' t' Ht' Hp'. rewrite get_upd by lia.
        destruct (Nat.eqb_spec t t') as [<-|Hn]; [|apply H1; auto; lia].
        assert (p' = p) by (eapply NoDup_get; [apply incr_NoDup, nz_incr| |]; eauto). subst p'.
        eexists; split; [reflexivity|]. apply (within_message p t (Fin q1) (Fin q0)); auto.
      * intros t' Ht' Hni. rewrite get_upd by lia.
        destruct (Nat.eqb_spec t t') as [<-|Hn]; [exfalso; apply Hni; eapply nth_error_In; eauto|]. apply H2; auto; lia.
  - exists o. split; [exact E|]. split; auto. split.
    + intros p t Hp. apply H1; auto. apply (nz_get _ _ Hp).
    + auto.
Qed.
End Department.
