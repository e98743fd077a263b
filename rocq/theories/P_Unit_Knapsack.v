(** * Proofs: the tables of the two passes of a department, entry by entry.

    The C++ and the Python pass write the same tables: row [j] of the forward table is the row of the
    participating teams before [j], row [j] of the backward table that of the teams from [j] on. *)
From Verif Require Import NumFacts Arr ArrFacts Spec M_Knapsack M_PyRef M_PyRef_Kc M_Unit_Knapsack P_Tsp_Constraints P_Kc_Trellis P_Knapsack P_PyRef_Kc P_PyRef.
From Verif Require Import Num.
Local Open Scope nat_scope.

(** a number or infinity *)
Definition plain (x : num) : Prop := x = PInf \/ exists q, x = Fin q.
Lemma plain_add x q : plain x -> plain (nadd x (Fin q)).
Proof. intros [->|(r & ->)]; [left|right; eexists]; reflexivity. Qed.
Lemma plain_min x y : plain x -> plain y -> plain (nmin x y).
Proof. unfold nmin. destruct (nlt y x); auto. Qed.
Lemma plain_min_comm x y : plain x -> plain y -> nmin x y = nmin y x.
Proof.
  intros [->|(q & ->)] [->|(r & ->)]; try reflexivity. unfold nmin. cbn [nlt].
  destruct (qltb_spec r q), (qltb_spec q r); auto.
  - exfalso; qlra.
  - f_equal. qlra.
Qed.

(** ** Writing one row of a table *)
Lemma write_row n c (tbl : list (list num)) r body f : shape n c tbl -> r < n ->
  (forall tb a, a < c -> body tb a = set2 tb r a (f a)) ->
  for_up 0 c tbl body = Some (upd tbl r (map f (seq 0 c))).
Proof.
  intros HS Hr Hb.
  destruct (for_up_ind 0 c tbl body (fun a tb => shape n c tb /\ (forall j, j <> r -> get tb j = get tbl j) /\
    forall a', a' < a -> get2 tb r a' = Some (f a'))) as (tb & E & S' & J & H).
  - lia.
  - split; auto. split; auto. intros; lia.
  - intros a tb Ha (S1 & J1 & H1). rewrite Hb by lia. rewrite (set2_lt n c) by (auto; lia).
    eexists; split; [reflexivity|]. split; [apply shape_upd2; auto|]. split.
    + intros j Hj. unfold upd2. destruct (get tb r) as [row|]; [|auto]. rewrite get_upd_ne by auto. auto.
    + intros a' Ha'. rewrite (get2_upd2 n c) by (auto; lia). rewrite Nat.eqb_refl. cbn [andb].
      destruct (Nat.eqb_spec a a') as [<-|]; auto. apply H1; lia.
  - rewrite E. f_equal. apply list_ext_get.
    + rewrite upd_length. destruct S', HS. congruence.
    + intros j Hj. destruct S' as (L & S'). rewrite L in Hj. rewrite get_upd by (destruct HS; lia).
      destruct (Nat.eqb_spec r j) as [<-|Hn]; [|auto].
      destruct (get_lt tb r) as [row Er]; [lia|]. rewrite Er. f_equal.
      assert (LR : length row = c) by (rewrite Forall_forall in S'; apply S'; eapply nth_error_In; eauto).
      apply list_ext_get; [now rewrite map_length, seq_length|]. intros a Ha. rewrite LR in Ha.
      specialize (H a Ha). unfold get2 in H. rewrite Er in H. cbn [bind] in H. rewrite H. symmetry.
      rewrite get_map. unfold get. rewrite (nth_error_nth' _ 0) by (rewrite seq_length; auto).
      rewrite seq_nth by auto. reflexivity.
Qed.
Lemma mapM_map {A B} (f : A -> option B) g l : (forall a, In a l -> f a = Some (g a)) -> mapM f l = Some (map g l).
Proof.
  induction l as [|a l IH]; intros H; [reflexivity|]. cbn. rewrite H by (left; auto). cbn.
  rewrite IH by (intros; apply H; right; auto). reflexivity.
Qed.

Section Tables.
Variables (T cap : nat) (ws : list nat) (ms : list Qc).
Hypothesis HW : length ws = T.
Hypothesis HM : length ms = T.
Hypothesis Hcap : forall t, t < T -> nth t ws 0 <= cap.
Hypothesis Hne : part T ws <> [].
Local Notation nz := (part T ws).
Local Notation w t := (nth t ws 0).
Local Notation m t := (Fin (nth t ms 0%Qc)).

Definition frow (t : nat) (init : list num) : list num :=
  map (fun a => if (w t <=? a) && negb ((t =? 0) && negb (a =? w t))
                then nmin (nth a init n0) (nadd (nth (a - w t) init n0) (m t)) else nth a init n0) (seq 0 (cap + 1)).
Fixpoint frows (j : nat) : list num :=
  match j with
  | O => n0 :: repeat PInf cap
  | S j => if w j =? 0 then frows j else frow j (frows j)
  end.
Definition brow (t : nat) (init : list num) : list num :=
  map (fun a => if ((0 <? t) && (a + w t <=? cap)) || ((a =? 0) && (t =? 0))
                then nmin (nth a init n0) (nadd (nth (a + w t) init n0) (m t)) else nth a init n0) (seq 0 (cap + 1)).
(** [brows k] is row [T - k] *)
Fixpoint brows (k : nat) : list num :=
  match k with
  | O => repeat n0 (cap + 1)
  | S k => if w (T - S k) =? 0 then brows k else brow (T - S k) (brows k)
  end.

Definition row_ok (r : list num) : Prop := length r = cap + 1 /\ Forall plain r.
Lemma row_ok_nth r a : row_ok r -> a < cap + 1 -> get r a = Some (nth a r n0) /\ plain (nth a r n0).
Proof.
  intros (L & F) H. split; [apply get_nth; lia|]. rewrite Forall_forall in F. apply F, nth_In. lia.
Qed.
Lemma frow_ok t init : row_ok init -> row_ok (frow t init).
Proof.
  intros HI. unfold frow. split; [now rewrite map_length, seq_length|]. apply Forall_map, Forall_forall.
  intros a Ha. apply in_seq in Ha. destruct (_ && _) eqn:E; [|apply row_ok_nth; auto; lia].
  apply plain_min; [apply row_ok_nth; auto; lia|]. apply plain_add. apply row_ok_nth; auto; lia.
Qed.
Lemma brow_ok t init : t < T -> row_ok init -> row_ok (brow t init).
Proof.
  intros Ht HI. unfold brow. split; [now rewrite map_length, seq_length|]. apply Forall_map, Forall_forall.
  intros a Ha. apply in_seq in Ha. destruct (_ || _) eqn:E; [|apply row_ok_nth; auto; lia].
  apply plain_min; [apply row_ok_nth; auto; lia|]. apply plain_add. apply row_ok_nth; auto.
  apply orb_prop in E as [E|E]; apply andb_prop in E as [E1 E2].
  - apply Nat.leb_le in E2. lia.
  - apply Nat.eqb_eq in E1. subst a. pose proof (Hcap t Ht). lia.
Qed.
Lemma frows_ok j : row_ok (frows j).
Proof.
  induction j as [|j IH]; cbn [frows].
  - split; [cbn; rewrite repeat_length; lia|]. constructor; [right; eexists; reflexivity|].
    apply Forall_forall. intros x Hx. apply repeat_spec in Hx. left. auto.
  - destruct (_ =? _); auto using frow_ok.
Qed.
Lemma brows_ok k : k <= T -> row_ok (brows k).
Proof.
  induction k as [|k IH]; intros Hk; cbn [brows].
  - split; [apply repeat_length|]. apply Forall_forall. intros x Hx. apply repeat_spec in Hx. right. exists 0%Qc. auto.
  - destruct (_ =? _); [apply IH; lia|]. apply brow_ok; [lia|apply IH; lia].
Qed.

(** rows do not change where nobody participates *)
Lemma frows_const i j : i <= j -> (forall x, i <= x < j -> w x = 0) -> frows j = frows i.
Proof.
  intros Hij. induction Hij as [|j Hij IH]; intros H; auto. cbn [frows]. rewrite (H j) by lia. cbn. apply IH.
  intros; apply H; lia.
Qed.
Lemma brows_const i k : i <= k -> k <= T -> (forall x, T - k <= x < T - i -> w x = 0) -> brows k = brows i.
Proof.
  intros Hik. induction Hik as [|k Hik IH]; intros HT H; auto. cbn [brows]. rewrite (H (T - S k)) by lia. cbn. apply IH; [lia|].
  intros; apply H; lia.
Qed.
Lemma frows_step t : w t <> 0 -> frows (t + 1) = frow t (frows t).
Proof. intros H. rewrite Nat.add_1_r. cbn [frows]. apply Nat.eqb_neq in H. now rewrite H. Qed.
Lemma brows_step t : t < T -> w t <> 0 -> brows (T - t) = brow t (brows (T - (t + 1))).
Proof.
  intros Ht H. replace (T - t) with (S (T - (t + 1))) by lia. cbn [brows].
  replace (T - S (T - (t + 1))) with t by lia. apply Nat.eqb_neq in H. now rewrite H.
Qed.

(** the participant after number [l], or the end *)
Definition next (l : nat) : nat := match get nz l with Some t => t | None => T end.
Lemma next_le l : next l <= T.
Proof. unfold next. destruct (get nz l) as [t|] eqn:E; auto. apply (nz_get T ws ms HW HM) in E. lia. Qed.
Lemma nz_at x : x < T -> w x <> 0 -> exists q, get nz q = Some x.
Proof. intros H1 H2. apply In_nth_error. apply (proj2 (nz_In T ws ms HW HM x)). auto. Qed.
Lemma gap l t : get nz l = Some t -> forall x, t < x < next (l + 1) -> w x = 0.
Proof.
  intros Ht x Hx. destruct (Nat.eq_dec (w x) 0) as [|N]; auto. exfalso.
  pose proof (next_le (l + 1)). destruct (nz_at x) as (q & Hq); [lia|auto|].
  destruct (lt_eq_lt_dec q l) as [[Hl| ->]|Hl].
  - assert (x < t) by (apply (nz_incr T ws q l); auto). lia.
  - assert (x = t) by congruence. lia.
  - unfold next in Hx. destruct (get nz (l + 1)) as [t'|] eqn:E'.
    + destruct (Nat.eq_dec q (l + 1)) as [->|]; [assert (x = t') by congruence; lia|].
      assert (t' < x) by (apply (nz_incr T ws (l + 1) q); auto; lia). lia.
    + apply nth_error_None in E'. apply get_Some_lt in Hq. lia.
Qed.
Lemma gap0 : forall x, x < next 0 -> w x = 0.
Proof.
  intros x Hx. destruct (Nat.eq_dec (w x) 0) as [|N]; auto. exfalso. pose proof (next_le 0).
  destruct (nz_at x) as (q & Hq); [lia|auto|]. unfold next in Hx. destruct (get nz 0) as [t|] eqn:E.
  - destruct (Nat.eq_dec q 0) as [->|]; [assert (x = t) by congruence; lia|].
    assert (t < x) by (apply (nz_incr T ws 0 q); auto; lia). lia.
  - apply nth_error_None in E. apply get_Some_lt in Hq. lia.
Qed.

(** ** The forward table of the C++ code *)
Lemma fwd_stage_row t init tbl : t < T -> shape (T + 1) (cap + 1) tbl -> row_ok init ->
  fwd_stage cap t (w t) (m t) init tbl = Some (upd tbl (t + 1) (frow t init)).
Proof.
  intros Ht HS HI. unfold fwd_stage, frow. apply (write_row (T + 1) (cap + 1)); auto; [lia|].
  intros tb a Ha. destruct (row_ok_nth init a HI Ha) as [-> _]. cbn [bind].
  destruct (row_ok_nth init (a - w t) HI) as [-> _]; [lia|]. cbn [bind]. destruct (_ && _); reflexivity.
Qed.

Lemma forward_rows tbl : shape (T + 1) (cap + 1) tbl ->
  forward T cap nz (length nz) ws (map Fin ms) tbl = Some (map frows (seq 0 (T + 1))).
Proof.
  intros HS. unfold forward. set (init0 := n0 :: repeat PInf cap).
  assert (L0 : length init0 = cap + 1) by (cbn; rewrite repeat_length; lia).
  rewrite set_lt by (destruct HS; lia). cbn [bind].
  destruct (nz_nonempty T ws Hne) as (z0 & Hz0). rewrite Hz0; cbn [bind].
  destruct (nz_get T ws ms HW HM _ _ Hz0) as [Lz0 _].
  assert (N0 : next 0 = z0) by (unfold next; now rewrite Hz0).
  assert (INIT : exists tb, (if z0 =? 0 then Some (upd tbl 0 init0)
      else for_up 0 z0 (upd tbl 0 init0) (fun tbl j => set tbl (j + 1) init0)) = Some tb /\
      shape (T + 1) (cap + 1) tb /\ forall j, j <= z0 -> get tb j = Some init0).
  { assert (S0 : shape (T + 1) (cap + 1) (upd tbl 0 init0)) by (apply shape_upd; auto).
    destruct (Nat.eqb_spec z0 0) as [->|Hn].
    - eexists; split; [reflexivity|]. split; auto. intros j Hj. replace j with 0 by lia. apply get_upd_eq. destruct HS; lia.
    - destruct (fill_up_ok (upd tbl 0 init0) 0 z0 init0) as (tb & E & L & H); [lia|rewrite upd_length; destruct HS; lia|].
      exists tb. split; [exact E|]. split.
      + apply shape_get_ext; [rewrite L, upd_length; destruct HS; auto|]. intros i r Hi. rewrite H in Hi.
        destruct ((0 <? i) && (i <=? z0)); [congruence|]. eapply shape_row; eauto.
      + intros j Hj. rewrite H. destruct (Nat.ltb_spec 0 j), (Nat.leb_spec j z0); cbn [andb]; auto; try lia.
        replace j with 0 by lia. apply get_upd_eq. destruct HS; lia. }
  destruct INIT as (tb0 & -> & S0 & G0). cbn [bind].
  match goal with |- context [for_up 0 (length nz) ?st0 ?bd] =>
    destruct (for_up_ind 0 (length nz) st0 bd (fun l st => shape (T + 1) (cap + 1) (fst st) /\
      snd st = frows (next l) /\ forall j, j <= next l -> get (fst st) j = Some (frows j)))
      as ([tb init] & E & S1 & _ & H) end.
  - lia.
  - cbn [fst snd]. split; auto.
    assert (C : forall j, j <= z0 -> frows j = init0).
    { intros j Hj. change init0 with (frows 0). apply frows_const; [lia|]. intros x Hx. apply gap0. lia. }
    rewrite N0. split; [symmetry; apply C; lia|]. intros j Hj. rewrite C by auto. auto.
  - intros l [tb init] Hl (S1 & Ei & HR). cbn [fst snd] in *. subst init.
    destruct (get_lt nz l) as [t Ht]; [lia|]. rewrite Ht; cbn [bind].
    assert (Nl : next l = t) by (unfold next; now rewrite Ht). rewrite Nl in *.
    destruct (nz_get T ws ms HW HM _ _ Ht) as [Lt Wt].
    rewrite (get_ws T ws ms HW HM), (get_ms T ws ms HW HM) by auto. cbn [bind].
    rewrite fwd_stage_row by (auto using frows_ok). cbn [bind]. rewrite <- frows_step by auto.
    rewrite get_upd_eq by (destruct S1; lia). cbn [bind].
    set (row := frows (t + 1)). set (tb1 := upd tb (t + 1) row).
    assert (S2 : shape (T + 1) (cap + 1) tb1) by (apply shape_upd; auto; apply frows_ok).
    assert (K1 : forall j, j <= t + 1 -> get tb1 j = Some (frows j)).
    { intros j Hj. unfold tb1. rewrite get_upd by (destruct S1; lia).
      destruct (Nat.eqb_spec (t + 1) j) as [<-|]; auto. apply HR. lia. }
    assert (Hgap := gap l t Ht). pose proof (next_le (l + 1)) as NL.
    assert (Nt : t + 1 <= next (l + 1)).
    { unfold next. destruct (get nz (l + 1)) as [t'|] eqn:E'; [|lia].
      assert (t < t') by (apply (nz_incr T ws l (l + 1)); auto; lia). lia. }
    assert (CONST : forall j, t + 1 <= j <= next (l + 1) -> frows j = row).
    { intros j Hj. apply frows_const; [lia|]. intros x Hx. apply Hgap. lia. }
    assert (NOFILL : next (l + 1) = t + 1 -> exists s', Some (tb1, row) = Some s' /\ shape (T + 1) (cap + 1) (fst s') /\
      snd s' = frows (next (l + 1)) /\ forall j, j <= next (l + 1) -> get (fst s') j = Some (frows j)).
    { intros En. eexists; split; [reflexivity|]. cbn [fst snd]. rewrite En. auto. }
    assert (FILL : forall hi, hi = next (l + 1) -> exists s',
      (' tb2 <- for_up (t + 1) hi tb1 (fun tbl j => set tbl (j + 1) row) ;; Some (tb2, row)) = Some s' /\
      shape (T + 1) (cap + 1) (fst s') /\
      snd s' = frows (next (l + 1)) /\ forall j, j <= next (l + 1) -> get (fst s') j = Some (frows j)).
    { intros hi ->. destruct (fill_up_ok tb1 (t + 1) (next (l + 1)) row) as (tb2 & E2 & L2 & G2); [lia|destruct S2; lia|].
      rewrite E2. eexists; split; [reflexivity|]. cbn [fst snd]. split.
      { apply shape_get_ext; [rewrite L2; destruct S2; auto|]. intros i r Hi. rewrite G2 in Hi.
        destruct (_ && _); [injection Hi as <-; apply frows_ok|]. eapply shape_row; eauto. }
      split; [rewrite CONST; auto; lia|]. intros j Hj. rewrite G2.
      destruct (Nat.ltb_spec (t + 1) j), (Nat.leb_spec j (next (l + 1))); cbn [andb]; auto; try lia.
      now rewrite CONST by lia. }
    destruct (Nat.eqb_spec (length nz) T) as [Hfull|Hnf].
    { cbn [bind]. apply NOFILL. unfold next. destruct (get nz (l + 1)) as [t'|] eqn:E'.
      - rewrite (nz_full T ws ms HW HM _ _ Hfull Ht), (nz_full T ws ms HW HM _ _ Hfull E'). auto.
      - apply nth_error_None in E'. pose proof (nz_full T ws ms HW HM _ _ Hfull Ht). lia. }
    rewrite nz_bs. cbn [bind].
    destruct (existsb (Nat.eqb (t + 1)) nz) eqn:Ef.
    { cbn [bind]. apply NOFILL. apply existsb_In in Ef. apply (nz_In T ws ms HW HM) in Ef as [_ Ef].
      destruct (Nat.eq_dec (next (l + 1)) (t + 1)) as [|N]; auto. exfalso. apply Ef, Hgap. lia. }
    assert (Hnot : ~ In (t + 1) nz) by (rewrite <- existsb_In; congruence).
    destruct (get_lt nz (length nz - 1)) as [last Hlast]; [lia|].
    assert (Hback : back nz = Some last).
    { unfold back. destruct (length nz) eqn:En; [lia|]. replace (Datatypes.S n - 1) with n in Hlast by lia. auto. }
    rewrite Hback; cbn [bind]. destruct (nz_get T ws ms HW HM _ _ Hlast) as [Llast _].
    destruct (Nat.eq_dec l (length nz - 1)) as [Hend|Hmid].
    + assert (last = t) by (rewrite Hend in Ht; congruence). subst last.
      assert (En : next (l + 1) = T).
      { unfold next. destruct (get nz (l + 1)) eqn:E'; auto. apply get_Some_lt in E'. lia. }
      destruct (Nat.leb_spec t (t + 1)); [|lia]. cbn [andb].
      destruct (Nat.ltb_spec (t + 1) T) as [HT|HT].
      * apply FILL. auto.
      * destruct (Nat.ltb_spec (t + 1) t); [lia|]. cbn [bind]. apply NOFILL. lia.
    + destruct (get_lt nz (l + 1)) as [t' Ht']; [lia|].
      assert (En : next (l + 1) = t') by (unfold next; now rewrite Ht').
      assert (Htt' : t < t') by (apply (nz_incr T ws l (l + 1)); auto; lia).
      assert (t' <> t + 1) by (intros ->; apply Hnot; eapply nth_error_In; eauto).
      assert (t' <= last).
      { destruct (Nat.eq_dec (l + 1) (length nz - 1)) as [Hq|Hq].
        - rewrite Hq in Ht'. assert (t' = last) by congruence. lia.
        - assert (t' < last) by (apply (nz_incr T ws (l + 1) (length nz - 1)); auto; lia). lia. }
      destruct (Nat.leb_spec last (t + 1)); [lia|]. cbn [andb].
      destruct (Nat.ltb_spec (t + 1) last); [|lia]. rewrite nz_ub; cbn [bind].
      rewrite (first_greater_at nz t (l + 1) t'); auto.
      2:{ intros i a Hi Ha. destruct (Nat.eq_dec i l) as [->|]; [assert (a = t) by congruence; lia|].
          assert (a < t) by (apply (nz_incr T ws i l); auto; lia). lia. }
      rewrite Ht'; cbn [bind]. apply FILL. auto.
  - cbn [fst snd] in *. rewrite E; cbn [bind]. f_equal.
    assert (En : next (length nz) = T).
    { unfold next. destruct (get nz (length nz)) eqn:E'; auto. apply get_Some_lt in E'. lia. }
    apply list_ext_get; [rewrite map_length, seq_length; apply S1|]. intros j Hj. destruct S1 as [L1 _]. rewrite L1 in Hj.
    rewrite H by lia. symmetry. rewrite get_map. unfold get. rewrite (nth_error_nth' _ 0) by (rewrite seq_length; auto).
    rewrite seq_nth by auto. reflexivity.
Qed.

(** ** The forward table of the Python code *)
Lemma py_fwd_row_eq t init : row_ok init -> py_fwd_row cap t (w t) (m t) init = Some (frow t init).
Proof.
  intros HI. unfold py_fwd_row, frow. apply mapM_map. intros a Ha. apply in_seq in Ha.
  destruct (row_ok_nth init a HI) as [Ga Pa]; [lia|]. destruct (row_ok_nth init (a - w t) HI) as [Gw Pw]; [lia|].
  rewrite Ga, Gw. cbn [bind]. destruct (_ && _); [|reflexivity]. f_equal. apply plain_min_comm; auto using plain_add.
Qed.
Lemma map_repeat_const {A B} (f : A -> B) l y : (forall x, In x l -> f x = y) -> map f l = repeat y (length l).
Proof. induction l as [|x l IH]; intros H; [reflexivity|]. cbn. rewrite H by (left; auto). f_equal. apply IH. intros; apply H; right; auto. Qed.
(** a list that is known up to [i] goes on to [j] if nothing changes in between *)
Lemma rows_extend (f : nat -> list num) i j row : i <= j -> (forall x, i < x <= j -> f x = row) ->
  map f (seq 0 (i + 1)) ++ repeat row (j - i) = map f (seq 0 (j + 1)).
Proof.
  intros H1 H2. replace (j + 1) with ((i + 1) + (j - i)) by lia. rewrite (seq_app (i + 1) (j - i) 0), map_app. f_equal. symmetry.
  rewrite (map_repeat_const f (seq (0 + (i + 1)) (j - i)) row); [now rewrite seq_length|].
  intros x Hx. apply in_seq in Hx. apply H2. lia.
Qed.
Definition next_of (rest : list nat) : nat := match rest with [] => T | t :: _ => t end.
Lemma next_of_next done rest : nz = done ++ rest -> next (length done) = next_of rest.
Proof.
  intros E. unfold next, get. rewrite E, nth_error_app2, Nat.sub_diag by lia. destruct rest; reflexivity.
Qed.

Lemma py_forward_rows : py_forward cap (map Fin ms) ws = Some (map frows (seq 0 (T + 1))).
Proof.
  unfold py_forward. rewrite (non_zero_part T ws HW), map_length, HM. set (init0 := n0 :: repeat PInf cap).
  destruct (nz_nonempty T ws Hne) as (z0 & Hz0). rewrite Hz0; cbn [bind].
  destruct (nz_get T ws ms HW HM _ _ Hz0) as [Lz0 _].
  assert (N0 : next 0 = z0) by (unfold next; now rewrite Hz0).
  set (pre := if z0 =? 0 then [] else repeat init0 z0).
  assert (Epre : pre = repeat init0 z0).
  { unfold pre. destruct (Nat.eqb_spec z0 0) as [->|]; auto. }
  match goal with |- context [foldM ?bd nz ?st0] =>
    destruct (foldM_ind bd (fun done st => 
      fst st = frows (next (length done)) /\ init0 :: snd st = map frows (seq 0 (next (length done) + 1))) nz st0)
      as ([init stage] & E & _ & K) end.
  - cbn [fst snd length]. rewrite N0, Epre.
    assert (C : forall j, j <= z0 -> frows j = init0).
    { intros j Hj. change init0 with (frows 0). apply frows_const; [lia|]. intros x Hx. apply gap0. lia. }
    split; [symmetry; apply C; lia|].
    rewrite (map_repeat_const frows _ init0), seq_length, Nat.add_1_r; [reflexivity|].
    intros x Hx. apply in_seq in Hx. apply C. lia.
  - intros done t rest [init stage] E0 (Ei & Es). cbn [fst snd] in *. subst init.
    set (l := length done) in *.
    assert (Ht : get nz l = Some t).
    { rewrite E0. unfold get, l. rewrite nth_error_app2, Nat.sub_diag by lia. reflexivity. }
    assert (Nl : next l = t) by (unfold next; now rewrite Ht). rewrite Nl in *.
    destruct (nz_get T ws ms HW HM _ _ Ht) as [Lt Wt].
    rewrite (get_ws T ws ms HW HM), (get_ms T ws ms HW HM) by auto. cbn [bind].
    rewrite py_fwd_row_eq by apply frows_ok. cbn [bind]. rewrite <- frows_step by auto.
    set (row := frows (t + 1)).
    assert (LD : length (done ++ [t]) = l + 1) by (rewrite app_length; reflexivity). rewrite LD.
    assert (Hgap := gap l t Ht). pose proof (next_le (l + 1)) as NL.
    assert (Nt : t + 1 <= next (l + 1)).
    { unfold next. destruct (get nz (l + 1)) as [t'|] eqn:E'; [|lia].
      assert (t < t') by (apply (nz_incr T ws l (l + 1)); auto; lia). lia. }
    assert (CONST : forall j, t + 1 <= j <= next (l + 1) -> frows j = row).
    { intros j Hj. apply frows_const; [lia|]. intros x Hx. apply Hgap. lia. }
    assert (STEP : forall n, t + 1 + n = next (l + 1) ->
      row = frows (next (l + 1)) /\ init0 :: (stage ++ [row]) ++ repeat row n = map frows (seq 0 (next (l + 1) + 1))).
    { intros n Hn. split; [symmetry; apply CONST; lia|].
      rewrite <- (rows_extend frows t (next (l + 1)) row) by (try lia; intros; apply CONST; lia).
      rewrite <- Es. replace (next (l + 1) - t) with (S n) by lia. cbn [repeat app]. rewrite <- app_assoc. reflexivity. }
    assert (DONE0 : next (l + 1) = t + 1 -> exists s', Some (row, stage ++ [row]) = Some s' /\
      fst s' = frows (next (l + 1)) /\ init0 :: snd s' = map frows (seq 0 (next (l + 1) + 1))).
    { intros En. eexists; split; [reflexivity|]. cbn [fst snd]. specialize (STEP 0). cbn [repeat] in STEP.
      rewrite app_nil_r in STEP. apply STEP. lia. }
    assert (Len : length nz = l + 1 + length rest) by (rewrite E0, app_length; cbn [length]; fold l; lia).
    destruct (get_lt nz (length nz - 1)) as [last Hlast]; [lia|].
    assert (Hback : py_last nz = Some last).
    { unfold py_last. destruct (length nz) eqn:En; [lia|]. replace (Datatypes.S n - 1) with n in Hlast by lia. auto. }
    rewrite Hback; cbn [bind]. destruct (nz_get T ws ms HW HM _ _ Hlast) as [Llast _].
    destruct (Nat.eqb_spec (length nz) T) as [Hfull|Hnf].
    { cbn [bind]. apply DONE0. unfold next. destruct (get nz (l + 1)) as [t'|] eqn:E'.
      - rewrite (nz_full T ws ms HW HM _ _ Hfull Ht), (nz_full T ws ms HW HM _ _ Hfull E'). auto.
      - apply nth_error_None in E'. pose proof (nz_full T ws ms HW HM _ _ Hfull Ht). lia. }
    destruct (py_in (t + 1) nz) eqn:Ef.
    { cbn [bind]. apply DONE0. apply existsb_eqb_In in Ef. apply (nz_In T ws ms HW HM) in Ef as [_ Ef].
      destruct (Nat.eq_dec (next (l + 1)) (t + 1)) as [|N]; auto. exfalso. apply Ef, Hgap. lia. }
    assert (Hnot : ~ In (t + 1) nz).
    { intros X. apply existsb_eqb_In in X. unfold py_in in Ef. congruence. }
    destruct (Nat.eq_dec l (length nz - 1)) as [Hend|Hmid].
    + assert (last = t) by (rewrite Hend in Ht; congruence). subst last.
      assert (En : next (l + 1) = T).
      { unfold next. destruct (get nz (l + 1)) eqn:E'; auto. apply get_Some_lt in E'. lia. }
      destruct (Nat.leb_spec t (t + 1)); [|lia]. cbn [andb].
      destruct (Nat.ltb_spec (t + 1) T) as [HT|HT].
      * cbn [bind]. eexists; split; [reflexivity|]. cbn [fst snd]. apply STEP. lia.
      * destruct (Nat.ltb_spec (t + 1) t); [lia|]. cbn [bind]. apply DONE0. lia.
    + destruct (get_lt nz (l + 1)) as [t' Ht']; [lia|].
      assert (En : next (l + 1) = t') by (unfold next; now rewrite Ht').
      assert (Htt' : t < t') by (apply (nz_incr T ws l (l + 1)); auto; lia).
      assert (t' <> t + 1) by (intros ->; apply Hnot; eapply nth_error_In; eauto).
      assert (t' <= last).
      { destruct (Nat.eq_dec (l + 1) (length nz - 1)) as [Hq|Hq].
        - rewrite Hq in Ht'. assert (t' = last) by congruence. lia.
        - assert (t' < last) by (apply (nz_incr T ws (l + 1) (length nz - 1)); auto; lia). lia. }
      destruct (Nat.leb_spec last (t + 1)); [lia|]. cbn [andb].
      destruct (Nat.ltb_spec (t + 1) last); [|lia].
      rewrite (next_greater_at nz t (l + 1) t'); auto.
      2:{ intros i a Hi Ha. destruct (Nat.eq_dec i l) as [->|]; [assert (a = t) by congruence; lia|].
          assert (a < t) by (apply (nz_incr T ws i l); auto; lia). lia. }
      cbn [bind]. rewrite Ht'; cbn [bind]. eexists; split; [reflexivity|]. cbn [fst snd]. apply STEP. lia.
  - rewrite E. cbn [bind]. cbn [snd] in K. rewrite K. do 2 f_equal.
    unfold next. destruct (get nz (length nz)) eqn:E'; auto. apply get_Some_lt in E'. lia.
Qed.

(** ** The backward table of the C++ code *)
Lemma bwd_stage_row t init tbl : t < T -> shape (T + 1) (cap + 1) tbl -> row_ok init ->
  bwd_stage cap t (w t) (m t) init tbl = Some (upd tbl t (brow t init)).
Proof.
  intros Ht HS HI. unfold bwd_stage, brow. apply (write_row (T + 1) (cap + 1)); auto; [lia|].
  intros tb a Ha. destruct (row_ok_nth init a HI Ha) as [-> _]. cbn [bind].
  destruct (_ || _) eqn:E; [|reflexivity].
  assert (B : a + w t < cap + 1).
  { apply orb_prop in E as [E|E]; apply andb_prop in E as [E1 E2].
    - apply Nat.leb_le in E2. lia.
    - apply Nat.eqb_eq in E1. subst a. pose proof (Hcap t Ht). lia. }
  destruct (row_ok_nth init (a + w t) HI B) as [-> _]. reflexivity.
Qed.
(** the row after the participant before number [l], or row 0 *)
Definition prev (l : nat) : nat := match l with O => 0 | S k => match get nz k with Some t => t + 1 | None => 0 end end.
Lemma prev_gap l t : get nz l = Some t -> prev l <= t /\ forall x, prev l <= x < t -> w x = 0.
Proof.
  intros Ht. destruct (nz_get T ws ms HW HM _ _ Ht) as [Lt _].
  assert (P : forall t', 0 < l -> get nz (l - 1) = Some t' -> prev l = t' + 1).
  { intros t' Hl E. destruct l as [|k]; [lia|]. cbn [prev]. replace (S k - 1) with k in E by lia. now rewrite E. }
  destruct (Nat.eq_dec l 0) as [->|Hl].
  - cbn [prev]. split; [lia|]. intros x Hx. apply gap0. unfold next. rewrite Ht. lia.
  - destruct (get_lt nz (l - 1)) as [t' Ht']; [apply get_Some_lt in Ht; lia|]. rewrite (P t') by (auto; lia).
    assert (t' < t) by (apply (nz_incr T ws (l - 1) l); auto; lia). split; [lia|].
    intros x Hx. apply (gap (l - 1) t' Ht'). replace (l - 1 + 1) with l by lia. unfold next. rewrite Ht. lia.
Qed.

Lemma backward_rows tbl : shape (T + 1) (cap + 1) tbl ->
  backward T cap nz (length nz) ws (map Fin ms) tbl = Some (map (fun j => brows (T - j)) (seq 0 (T + 1))).
Proof.
  intros HS. unfold backward. set (init0 := repeat n0 (cap + 1)).
  assert (L0 : length init0 = cap + 1) by apply repeat_length.
  rewrite set_lt by (destruct HS; lia). cbn [bind].
  destruct (nz_nonempty T ws Hne) as (z0 & Hz0).
  pose proof (get_Some_lt _ _ _ Hz0) as Lnz.
  destruct (get_lt nz (length nz - 1)) as [last Hlast]; [lia|].
  assert (Hback : match length nz with O => None | Datatypes.S k => get nz k end = Some last).
  { destruct (length nz) eqn:En; [lia|]. replace (Datatypes.S n - 1) with n in Hlast by lia. auto. }
  rewrite Hback; cbn [bind]. destruct (nz_get T ws ms HW HM _ _ Hlast) as [Llast _].
  assert (Hz0l : z0 <= last).
  { destruct (Nat.eq_dec 0 (length nz - 1)) as [Hq|Hq].
    - rewrite <- Hq in Hlast. assert (z0 = last) by congruence. lia.
    - assert (z0 < last) by (apply (nz_incr T ws 0 (length nz - 1)); auto; lia). lia. }
  assert (Pl : prev (length nz) = last + 1).
  { destruct (length nz) as [|k] eqn:En; [lia|]. replace (S k - 1) with k in Hlast by lia. cbn [prev]. now rewrite Hlast. }
  assert (INIT : exists tb, (if last + 1 =? T then Some (upd tbl T init0)
      else z0 <- get nz 0 ;; for_down (z0 + 1) T (upd tbl T init0) (fun tbl j => set tbl j init0)) = Some tb /\
      shape (T + 1) (cap + 1) tb /\ forall j, last + 1 <= j <= T -> get tb j = Some init0).
  { assert (S0 : shape (T + 1) (cap + 1) (upd tbl T init0)) by (apply shape_upd; auto).
    destruct (Nat.eqb_spec (last + 1) T) as [->|Hn].
    - eexists; split; [reflexivity|]. split; auto. intros j Hj. replace j with T by lia. apply get_upd_eq. destruct HS; lia.
    - rewrite Hz0; cbn [bind].
      destruct (fill_down_ok (upd tbl T init0) (z0 + 1) T init0) as (tb & E & L & H); [lia|rewrite upd_length; destruct HS; lia|].
      exists tb. split; [exact E|]. split.
      + apply shape_get_ext; [rewrite L, upd_length; destruct HS; auto|]. intros i r Hi. rewrite H in Hi.
        destruct ((z0 + 1 <=? i) && (i <? T)); [congruence|]. eapply shape_row; eauto.
      + intros j Hj. rewrite H. destruct (Nat.leb_spec (z0 + 1) j), (Nat.ltb_spec j T); cbn [andb]; auto; try lia.
        replace j with T by lia. apply get_upd_eq. destruct HS; lia. }
  destruct INIT as (tb0 & -> & S0 & G0). cbn [bind].
  match goal with |- context [for_down 0 (length nz) ?st0 ?bd] =>
    destruct (for_down_ind 0 (length nz) st0 bd (fun l st => shape (T + 1) (cap + 1) (fst st) /\
      snd st = brows (T - prev l) /\ forall j, prev l <= j <= T -> get (fst st) j = Some (brows (T - j))))
      as ([tb init] & E & S1 & _ & H) end.
  - lia.
  - cbn [fst snd]. split; auto. rewrite Pl.
    assert (C : forall j, last + 1 <= j <= T -> brows (T - j) = init0).
    { intros j Hj. change init0 with (brows 0). apply brows_const; [lia|lia|]. intros x Hx.
      apply (gap (length nz - 1) last Hlast). replace (length nz - 1 + 1) with (length nz) by lia.
      unfold next. destruct (get nz (length nz)) eqn:E'; [apply get_Some_lt in E'; lia|]. lia. }
    split; [symmetry; apply C; lia|]. intros j Hj. rewrite C by auto. auto.
  - intros l [tb init] Hl (S1 & Ei & HR). cbn [fst snd] in *.
    destruct (get_lt nz l) as [t Ht]; [lia|]. rewrite Ht; cbn [bind].
    assert (Pn : prev (l + 1) = t + 1) by (rewrite Nat.add_1_r; cbn [prev]; now rewrite Ht). rewrite Pn in *.
    destruct (nz_get T ws ms HW HM _ _ Ht) as [Lt Wt].
    rewrite (get_ws T ws ms HW HM), (get_ms T ws ms HW HM) by auto. cbn [bind]. subst init.
    rewrite bwd_stage_row by (auto; apply brows_ok; lia). cbn [bind]. rewrite <- brows_step by auto.
    rewrite get_upd_eq by (destruct S1; lia). cbn [bind].
    set (row := brows (T - t)). set (tb1 := upd tb t row).
    assert (Rok : row_ok row) by (apply brows_ok; lia).
    assert (S2 : shape (T + 1) (cap + 1) tb1) by (apply shape_upd; auto; apply Rok).
    assert (K1 : forall j, t <= j <= T -> get tb1 j = Some (brows (T - j))).
    { intros j Hj. unfold tb1. rewrite get_upd by (destruct S1; lia).
      destruct (Nat.eqb_spec t j) as [<-|]; auto. apply HR. lia. }
    destruct (prev_gap l t Ht) as (Hp & Hgap).
    assert (CONST : forall j, prev l <= j <= t -> brows (T - j) = row).
    { intros j Hj. apply brows_const; [lia|lia|]. intros x Hx. apply Hgap. lia. }
    assert (NOFILL : prev l = t -> exists s', Some (tb1, row) = Some s' /\ shape (T + 1) (cap + 1) (fst s') /\
      snd s' = brows (T - prev l) /\ forall j, prev l <= j <= T -> get (fst s') j = Some (brows (T - j))).
    { intros En. eexists; split; [reflexivity|]. cbn [fst snd]. rewrite En. auto. }
    assert (FILL : forall lo, lo = prev l -> exists s',
      (' tb2 <- for_down lo t tb1 (fun tbl j => set tbl j row) ;; Some (tb2, row)) = Some s' /\
      shape (T + 1) (cap + 1) (fst s') /\
      snd s' = brows (T - prev l) /\ forall j, prev l <= j <= T -> get (fst s') j = Some (brows (T - j))).
    { intros lo ->. destruct (fill_down_ok tb1 (prev l) t row) as (tb2 & E2 & L2 & G2); [lia|destruct S2; lia|].
      rewrite E2. eexists; split; [reflexivity|]. cbn [fst snd]. split.
      { apply shape_get_ext; [rewrite L2; destruct S2; auto|]. intros i r Hi. rewrite G2 in Hi.
        destruct (_ && _); [injection Hi as <-; apply Rok|]. eapply shape_row; eauto. }
      split; [rewrite CONST; auto; lia|]. intros j Hj. rewrite G2.
      destruct (Nat.leb_spec (prev l) j), (Nat.ltb_spec j t); cbn [andb]; try lia.
      - now rewrite CONST by lia.
      - apply K1. lia. }
    destruct (Nat.eqb_spec (length nz - 1) T) as [Hx|Hx].
    { pose proof (nz_length T ws). lia. }
    destruct t as [|t1].
    { cbn [bind]. apply NOFILL. lia. }
    rewrite nz_bs; cbn [bind].
    destruct (existsb (Nat.eqb t1) nz) eqn:Ef.
    { cbn [bind]. apply NOFILL. apply existsb_In in Ef. apply (nz_In T ws ms HW HM) in Ef as [_ Ef].
      destruct (Nat.eq_dec (prev l) (S t1)) as [|N]; auto. exfalso. apply Ef, Hgap. lia. }
    assert (Hnot : ~ In t1 nz) by (rewrite <- existsb_In; congruence).
    rewrite Hz0; cbn [bind]. replace (t1 + 1) with (Datatypes.S t1) by lia.
    destruct (Nat.eq_dec l 0) as [->|Hl0].
    + assert (z0 = S t1) by congruence. destruct (Nat.leb_spec t1 z0) as [Hle|Hgt]; [|lia]. apply FILL. reflexivity.
    + destruct (get_lt nz (l - 1)) as [t' Ht']; [lia|].
      assert (Pt : prev l = t' + 1).
      { destruct l as [|k]; [lia|]. replace (S k - 1) with k in Ht' by lia. cbn [prev]. now rewrite Ht'. }
      assert (t' < Datatypes.S t1) by (apply (nz_incr T ws (l - 1) l); auto; lia).
      assert (t' <> t1) by (intros ->; apply Hnot; eapply nth_error_In; eauto).
      assert (z0 <= t').
      { destruct (Nat.eq_dec (l - 1) 0) as [E0|]; [rewrite E0 in Ht'; assert (t' = z0) by congruence; lia|].
        assert (z0 < t') by (apply (nz_incr T ws 0 (l - 1)); auto; lia). lia. }
      destruct (Nat.leb_spec t1 z0) as [Hle|Hgt]; [lia|].
      rewrite nz_ub; cbn [bind]. rewrite (first_greater_at nz t1 l (Datatypes.S t1)); auto.
      2:{ intros i a Hi Ha. destruct (Nat.eq_dec i (l - 1)) as [->|Hn]; [assert (a = t') by congruence; lia|].
          assert (a < t') by (apply (nz_incr T ws i (l - 1)); auto; lia). lia. }
      replace (match l with 0 => None | Datatypes.S p => get nz p end) with (Some t').
      2:{ destruct l as [|l']; [lia|]. replace (Datatypes.S l' - 1) with l' in Ht' by lia. auto. }
      cbn [bind]. apply FILL. auto.
  - cbn [fst snd] in *. rewrite E; cbn [bind]. f_equal.
    apply list_ext_get; [rewrite map_length, seq_length; apply S1|]. intros j Hj. destruct S1 as [L1 _]. rewrite L1 in Hj.
    rewrite H by (cbn [prev]; lia). symmetry. rewrite get_map. unfold get. rewrite (nth_error_nth' _ 0) by (rewrite seq_length; auto).
    rewrite seq_nth by auto. reflexivity.
Qed.

(** ** The backward table of the Python code *)
Lemma py_bwd_row_eq t init : t < T -> row_ok init -> py_bwd_row cap t (w t) (m t) init = Some (brow t init).
Proof.
  intros Ht HI. unfold py_bwd_row, brow. apply mapM_map. intros a Ha. apply in_seq in Ha.
  destruct (row_ok_nth init a HI) as [-> _]; [lia|]. cbn [bind]. destruct (_ || _) eqn:E; [|reflexivity].
  assert (B : a + w t < cap + 1).
  { apply orb_prop in E as [E|E]; apply andb_prop in E as [E1 E2].
    - apply Nat.leb_le in E2. lia.
    - apply Nat.eqb_eq in E1. subst a. pose proof (Hcap t Ht). lia. }
  destruct (row_ok_nth init (a + w t) HI B) as [-> _]. reflexivity.
Qed.

Lemma py_backward_rows : py_backward cap (map Fin ms) ws = Some (map (fun j => brows (T - j)) (seq 0 (T + 1))).
Proof.
  unfold py_backward. rewrite (non_zero_part T ws HW), map_length, HM. set (init0 := repeat n0 (cap + 1)).
  destruct (nz_nonempty T ws Hne) as (z0 & Hz0).
  pose proof (get_Some_lt _ _ _ Hz0) as Lnz.
  destruct (get_lt nz (length nz - 1)) as [last Hlast]; [lia|].
  assert (RG : forall i, i < length nz -> get (rev nz) i = get nz (length nz - 1 - i)).
  { intros i Hi. unfold get. rewrite (nth_error_nth' (rev nz) 0) by (rewrite rev_length; auto).
    rewrite rev_nth by auto. rewrite (nth_error_nth' nz 0) by lia. do 2 f_equal. lia. }
  rewrite RG by lia. rewrite Nat.sub_0_r, Hlast. cbn [bind].
  destruct (nz_get T ws ms HW HM _ _ Hlast) as [Llast _].
  assert (Pl : prev (length nz) = last + 1).
  { destruct (length nz) as [|k] eqn:En; [lia|]. replace (S k - 1) with k in Hlast by lia. cbn [prev]. now rewrite Hlast. }
  assert (Lz : py_last (rev nz) = Some z0).
  { unfold py_last. rewrite rev_length. destruct (length nz) as [|k] eqn:En; [lia|].
    rewrite RG by lia. replace (S k - 1 - k) with 0 by lia. auto. }
  set (pre := if last + 1 =? T then [] else repeat init0 (T - 1 - last)).
  assert (Epre : pre = repeat init0 (T - 1 - last)).
  { unfold pre. destruct (Nat.eqb_spec (last + 1) T) as [E|]; auto. replace (T - 1 - last) with 0 by lia. auto. }
  match goal with |- context [foldM ?bd (rev nz) ?st0] =>
    destruct (foldM_ind bd (fun done st => 
      fst st = brows (T - prev (length nz - length done)) /\
      init0 :: snd st = map brows (seq 0 (T - prev (length nz - length done) + 1))) (rev nz) st0)
      as ([init stage] & E & _ & K) end.
  - cbn [fst snd length]. rewrite Nat.sub_0_r, Pl, Epre.
    assert (C : forall k, k <= T - (last + 1) -> brows k = init0).
    { intros k Hk. change init0 with (brows 0). apply brows_const; [lia|lia|]. intros x Hx.
      apply (gap (length nz - 1) last Hlast). replace (length nz - 1 + 1) with (length nz) by lia.
      unfold next. destruct (get nz (length nz)) eqn:E'; [apply get_Some_lt in E'; lia|]. lia. }
    split; [symmetry; apply C; lia|].
    rewrite (map_repeat_const brows (seq 0 (T - (last + 1) + 1)) init0).
    + rewrite seq_length. replace (T - (last + 1) + 1) with (S (T - 1 - last)) by lia. reflexivity.
    + intros x Hx. apply in_seq in Hx. apply C. lia.
  - intros done t rest [init stage] E0 (Ei & Es). cbn [fst snd] in *.
    assert (Len : length nz = length done + 1 + length rest).
    { rewrite <- (rev_length nz), E0, app_length. cbn [length]. lia. }
    set (l := length rest).
    assert (Ht : get nz l = Some t).
    { specialize (RG (length done) ltac:(lia)). rewrite E0 in RG. unfold get in RG at 1.
      rewrite nth_error_app2, Nat.sub_diag in RG by lia. cbn in RG.
      replace (length nz - 1 - length done) with l in RG by (unfold l; lia). auto. }
    replace (length nz - length done) with (l + 1) in * by (unfold l; lia).
    rewrite app_length. cbn [length]. replace (length nz - (length done + 1)) with l by (unfold l; lia).
    assert (Pn : prev (l + 1) = t + 1) by (rewrite Nat.add_1_r; cbn [prev]; now rewrite Ht). rewrite Pn in *. subst init.
    destruct (nz_get T ws ms HW HM _ _ Ht) as [Lt Wt].
    rewrite (get_ws T ws ms HW HM), (get_ms T ws ms HW HM) by auto. cbn [bind].
    rewrite py_bwd_row_eq by (auto; apply brows_ok; lia). cbn [bind]. rewrite <- brows_step by auto.
    set (row := brows (T - t)). rewrite Lz. cbn [bind].
    destruct (prev_gap l t Ht) as (Hp & Hgap).
    assert (CONST : forall k, T - t <= k <= T - prev l -> brows k = row).
    { intros k Hk. apply brows_const; [lia|lia|]. intros x Hx. apply Hgap. lia. }
    assert (STEP : forall n, n + prev l = t ->
      row = brows (T - prev l) /\ init0 :: (stage ++ [row]) ++ repeat row n = map brows (seq 0 (T - prev l + 1))).
    { intros n Hn. split; [symmetry; apply CONST; lia|].
      rewrite <- (rows_extend brows (T - (t + 1)) (T - prev l) row) by (try lia; intros; apply CONST; lia).
      rewrite <- Es. replace (T - prev l - (T - (t + 1))) with (S n) by lia. cbn [repeat app]. rewrite <- app_assoc. reflexivity. }
    assert (DONE0 : prev l = t -> exists s', Some (row, stage ++ [row]) = Some s' /\
      fst s' = brows (T - prev l) /\ init0 :: snd s' = map brows (seq 0 (T - prev l + 1))).
    { intros En. eexists; split; [reflexivity|]. cbn [fst snd]. specialize (STEP 0). cbn [repeat] in STEP.
      rewrite app_nil_r in STEP. apply STEP. lia. }
    destruct (Nat.eqb_spec (length nz) T) as [Hfull|Hnf].
    { cbn [bind]. apply DONE0. pose proof (nz_full T ws ms HW HM _ _ Hfull Ht) as Et.
      destruct (Nat.eq_dec (prev l) t) as [|N]; auto. exfalso.
      destruct (get_lt nz (t - 1)) as [t' Ht']; [lia|].
      pose proof (nz_full T ws ms HW HM _ _ Hfull Ht') as Et'. destruct (nz_get T ws ms HW HM _ _ Ht') as [_ W'].
      apply W', Hgap. lia. }
    destruct t as [|t1].
    { cbn [bind]. apply DONE0. lia. }
    destruct (py_in t1 nz) eqn:Ef.
    { cbn [bind]. apply DONE0. apply existsb_eqb_In in Ef. apply (nz_In T ws ms HW HM) in Ef as [_ Ef].
      destruct (Nat.eq_dec (prev l) (S t1)) as [|N]; auto. exfalso. apply Ef, Hgap. lia. }
    assert (Hnot : ~ In t1 nz).
    { intros X. apply existsb_eqb_In in X. unfold py_in in Ef. congruence. }
    destruct (Nat.eq_dec l 0) as [El|Hl0].
    + rewrite El in *. assert (z0 = S t1) by congruence. destruct (Nat.leb_spec t1 z0) as [Hle|Hgt]; [|lia].
      cbn [bind]. eexists; split; [reflexivity|]. cbn [fst snd]. apply STEP. cbn [prev]. lia.
    + destruct (get_lt nz (l - 1)) as [t' Ht']; [lia|].
      assert (Pt : prev l = t' + 1).
      { destruct l as [|k]; [lia|]. replace (S k - 1) with k in Ht' by lia. cbn [prev]. now rewrite Ht'. }
      assert (t' < Datatypes.S t1) by (apply (nz_incr T ws (l - 1) l); auto; lia).
      assert (t' <> t1) by (intros ->; apply Hnot; eapply nth_error_In; eauto).
      assert (z0 <= t').
      { destruct (Nat.eq_dec (l - 1) 0) as [E1|]; [rewrite E1 in Ht'; assert (t' = z0) by congruence; lia|].
        assert (z0 < t') by (apply (nz_incr T ws 0 (l - 1)); auto; lia). lia. }
      destruct (Nat.leb_spec t1 z0) as [Hle|Hgt]; [lia|].
      rewrite (next_greater_at nz t1 l (S t1)); auto.
      2:{ intros i a Hi Ha. destruct (Nat.eq_dec i (l - 1)) as [->|]; [assert (a = t') by congruence; lia|].
          assert (a < t') by (apply (nz_incr T ws i (l - 1)); auto; lia). lia. }
      cbn [bind].
      replace (match l with 0 => None | Datatypes.S p => get nz p end) with (Some t').
      2:{ destruct l as [|l']; [lia|]. replace (Datatypes.S l' - 1) with l' in Ht' by lia. auto. }
      cbn [bind]. eexists; split; [reflexivity|]. cbn [fst snd]. apply STEP. lia.
  - rewrite E. cbn [bind]. cbn [snd] in K. rewrite rev_length, Nat.sub_diag in K. cbn [prev] in K.
    rewrite Nat.sub_0_r in K. change (rev stage ++ [init0]) with (rev (init0 :: stage)). rewrite K. f_equal.
    apply list_ext_get; [now rewrite rev_length, !map_length, !seq_length|]. intros j Hj.
    rewrite rev_length, map_length, seq_length in Hj. unfold get.
    rewrite (nth_error_nth' (rev _) []) by (rewrite rev_length, map_length, seq_length; auto).
    rewrite (nth_error_nth' (map _ _) []) by (rewrite map_length, seq_length; auto). f_equal.
    rewrite rev_nth by (rewrite map_length, seq_length; auto). rewrite map_length, seq_length.
    rewrite (nth_indep _ [] (brows 0)) by (rewrite map_length, seq_length; lia). rewrite (map_nth brows).
    rewrite (nth_indep (map (fun j => brows (T - j)) _) [] (brows (T - 0))) by (rewrite map_length, seq_length; lia).
    rewrite (map_nth (fun j => brows (T - j))), !seq_nth by lia. f_equal. lia.
Qed.
End Tables.

(** ** The extrinsic row of one department on given tables *)
Section Row.
Variables (T cap : nat) (ws : list nat) (msgs : list num) (fv bv : list (list num)).
Hypotheses (HW : length ws = T) (HM : length msgs = T).
Hypothesis Hcap : forall t, t < T -> nth t ws 0 <= cap.
Hypotheses (SF : shape (T + 1) (cap + 1) fv) (SB : shape (T + 1) (cap + 1) bv).
Local Notation w t := (nth t ws 0).
Local Notation m t := (nth t msgs n0).

Lemma metrics_some t : t < T -> exists a solid b dash,
  path_metrics cap t (w t) (m t) fv bv = Some (a :: solid, b :: dash).
Proof.
  intros Ht. specialize (Hcap t Ht).
  assert (G : forall t a (tb : list (list num)), shape (T + 1) (cap + 1) tb -> t < T + 1 -> a < cap + 1 ->
    exists x, get2 tb t a = Some x).
  { intros u a tb (L & F) Hu Ha. unfold get2. rewrite (get_nth _ u []) by lia. cbn [bind].
    rewrite Forall_forall in F. rewrite (get_nth _ a n0). { eauto. } rewrite F by (apply nth_In; lia). lia. }
  unfold path_metrics. destruct (Nat.eqb_spec t 0) as [->|H0].
  - destruct (G 0 0 fv) as (x & ->); auto; try lia. cbn [bind].
    destruct (G (0 + 1) (w 0) bv) as (y & ->); auto; try lia. cbn [bind].
    destruct (G (0 + 1) 0 bv) as (z & ->); auto; try lia. cbn [bind]. repeat eexists.
  - match goal with |- context [for_up 0 _ ?s ?bd] =>
      destruct (for_up_ind 0 (cap + 1) s bd (fun i st => 0 < i -> exists a solid b dash, st = (a :: solid, b :: dash)))
        as (st & E & H) end; [lia|lia| |].
    + intros i [solid dash] Hi H.
      destruct (G t i fv) as (x & Gx); auto; try lia. destruct (G (t + 1) i bv) as (z & Gz); auto; try lia.
      rewrite Gx, Gz. destruct (Nat.leb_spec (i + w t) cap) as [Hl|Hl].
      * cbn [bind]. destruct (G (t + 1) (i + w t) bv) as (y & ->); auto; try lia. cbn [bind].
        eexists. split; [reflexivity|]. intros _.
        destruct i as [|i]; [|destruct H as (a & s' & b & d' & Es); [lia|inversion Es; subst; cbn [app]; repeat eexists]].
        destruct solid, dash; cbn [app]; repeat eexists.
      * cbn [bind]. eexists. split; [reflexivity|]. intros _. destruct i as [|i]; [lia|].
        destruct H as (a & s' & b & d' & Es); [lia|inversion Es; subst; cbn [app]; repeat eexists].
    + destruct H as (a & s' & b & d' & ->); [lia|]. rewrite E. repeat eexists.
Qed.

(** the message of one team *)
Definition row_val (t : nat) : num :=
  match path_metrics cap t (w t) (m t) fv bv with
  | Some (solid, dash) =>
      match min_element solid, min_element dash with
      | Some s, Some d => nsub (nsub s d) (m t)
      | _, _ => n0
      end
  | None => n0
  end.
Definition row_out : list num := map (fun t => if w t =? 0 then n0 else row_val t) (seq 0 T).

Lemma get_row_out t : t < T -> get row_out t = Some (if w t =? 0 then n0 else row_val t).
Proof. intros H. unfold row_out. now rewrite get_map, get_seq by exact H. Qed.

Lemma extrinsic_row_eq out : length out = T -> extrinsic_row cap ws msgs fv bv out = Some row_out.
Proof.
  intros LO. unfold extrinsic_row. rewrite HW.
  match goal with |- for_up 0 _ ?s ?bd = _ =>
    destruct (for_up_ind 0 T s bd (fun i o => length o = T /\ forall t, t < i -> get o t = get row_out t))
      as (o & E & L & H) end; [lia|split; [auto|lia]| |].
  - intros t o Ht (L & H). rewrite (get_nth _ t 0) by lia. cbn [bind].
    assert (N : forall v, v = (if w t =? 0 then n0 else row_val t) -> exists s', set o t v = Some s' /\
      length s' = T /\ forall u, u < t + 1 -> get s' u = get row_out u).
    { intros v ->. rewrite set_lt by lia. eexists. split; [reflexivity|]. rewrite upd_length. split; [auto|].
      intros u Hu. rewrite get_upd by lia. destruct (Nat.eqb_spec t u) as [->|Hn]; [now rewrite get_row_out by lia|].
      apply H. lia. }
    destruct (Nat.eqb_spec (w t) 0) as [H0|H0]; [apply N; reflexivity|].
    rewrite (get_nth _ t n0) by lia. cbn [bind].
    destruct (metrics_some t) as (a & s & b & d & Em); [lia|]. rewrite Em. cbn [bind min_element]. apply N.
    unfold row_val. rewrite Em. reflexivity.
  - rewrite E. f_equal. apply list_ext_get; [unfold row_out; rewrite map_length, seq_length; auto|].
    intros t Ht. apply H. lia.
Qed.

Lemma py_extrinsic_row_eq : py_extrinsic_department T cap msgs ws fv bv = Some row_out.
Proof.
  unfold py_extrinsic_department.
  assert (NZ : forall t, In t (non_zero ws) <-> t < T /\ w t <> 0).
  { intros t. rewrite (non_zero_part T ws) by exact HW. unfold part. rewrite filter_In, in_seq, negb_true_iff, Nat.eqb_neq. lia. }
  match goal with |- foldM ?bd ?l ?s = _ =>
    destruct (foldM_ind bd (fun done o => length o = T /\
      forall t, t < T -> get o t = Some (if existsb (Nat.eqb t) done then row_val t else n0)) l s)
      as (o & E & L & H) end.
  - rewrite repeat_length. split; [reflexivity|]. intros t Ht. cbn. apply get_repeat. exact Ht.
  - intros done t rest o E0 (L & H).
    assert (I : In t (non_zero ws)) by (rewrite E0; apply in_or_app; right; left; reflexivity).
    apply NZ in I as (Ht & Hw). rewrite (get_nth _ t 0) by lia. cbn [bind]. rewrite (get_nth _ t n0) by lia. cbn [bind].
    change (py_metrics cap t) with (path_metrics cap t).
    destruct (metrics_some t Ht) as (a & s & b & d & Em). rewrite Em. cbn [bind].
    change (py_min (a :: s)) with (min_element (a :: s)). change (py_min (b :: d)) with (min_element (b :: d)).
    cbn [min_element bind]. rewrite set_lt by lia. eexists. split; [reflexivity|]. rewrite upd_length. split; [exact L|].
    intros u Hu. rewrite get_upd by lia. rewrite existsb_app. cbn [existsb]. rewrite orb_false_r.
    rewrite (Nat.eqb_sym u t). destruct (Nat.eqb_spec t u) as [->|Hn].
    + rewrite orb_true_r. unfold row_val. rewrite Em. reflexivity.
    + rewrite orb_false_r. apply H. exact Hu.
  - rewrite E. f_equal. apply list_ext_get; [unfold row_out; rewrite map_length, seq_length; auto|].
    intros t Ht. rewrite L in Ht. rewrite H, get_row_out by exact Ht. f_equal.
    destruct (existsb (Nat.eqb t) (non_zero ws)) eqn:Ex.
    + apply existsb_eqb_In, NZ in Ex as (_ & Hw). apply Nat.eqb_neq in Hw. now rewrite Hw.
    + destruct (Nat.eqb_spec (w t) 0) as [|Hw]; [reflexivity|]. exfalso.
      assert (X : In t (non_zero ws)) by (apply NZ; auto). apply existsb_eqb_In in X. congruence.
Qed.
End Row.
