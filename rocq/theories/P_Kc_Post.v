(** * KC-MWM analysis and post-processing: proofs. *)
From Coq Require Import Sorting.Sorted.
From Verif Require Import Num NumFacts Arr ArrFacts M_Tsp_Run M_Ksat_Py M_Tsp_Post M_Kc_Py SpecKc.
From Verif Require Import P_Ksat_Py P_Kc_Gen.
Local Open Scope nat_scope.

(** ** Lists *)
Notation incr := (StronglySorted lt).
Lemma incr_filter f l : incr l -> incr (filter f l).
Proof.
  induction 1 as [|a l Hs IH Ha]; cbn; [constructor|]. destruct (f a); auto. constructor; auto.
  rewrite Forall_forall in *. intros x Hx. apply filter_In in Hx as [Hx _]. auto.
Qed.
Lemma incr_seq a n : incr (seq a n).
Proof.
  revert a. induction n; intro a; cbn; constructor; auto. apply Forall_forall. intros x Hx. apply in_seq in Hx. lia.
Qed.
Lemma incr_NoDup l : incr l -> NoDup l.
Proof.
  induction 1 as [|a l Hs IH Ha]; constructor; auto. intro Hin. rewrite Forall_forall in Ha. specialize (Ha _ Hin). lia.
Qed.
Lemma index_of_ok t l : In t l -> exists k, index_of t l = Some k /\ nth_error l k = Some t.
Proof.
  induction l as [|a l IH]; cbn; [tauto|]. intro H. destruct (Nat.eqb_spec a t) as [-> |Hne].
  - exists 0. auto.
  - destruct H as [|H]; [congruence|]. destruct (IH H) as (k & E & G). rewrite E. exists (S k). auto.
Qed.
Lemma filter_none {A} (f : A -> bool) l : (forall a, In a l -> f a = false) -> filter f l = [].
Proof. induction l; cbn; auto. intro H. rewrite H; auto. Qed.
Lemma searchsorted_ok t l : incr l -> In t l -> nth_error l (searchsorted l t) = Some t.
Proof.
  intros H. induction H as [|a l Hs IH Ha]; [intros []|]. intros [-> |Hin].
  - unfold searchsorted. cbn [filter]. rewrite Nat.ltb_irrefl. rewrite Forall_forall in Ha.
    rewrite filter_none; [reflexivity|]. intros x Hx. apply Nat.ltb_ge. apply Ha in Hx. lia.
  - rewrite Forall_forall in Ha. specialize (Ha _ Hin) as Hat. unfold searchsorted. cbn [filter].
    apply Nat.ltb_lt in Hat. rewrite Hat. cbn [length nth_error]. apply IH; auto.
Qed.
Lemma find_index_ok {A} (f : A -> bool) l a : In a l -> f a = true ->
  exists k x, find_index f l = Some k /\ nth_error l k = Some x /\ f x = true /\
    (forall j y, j < k -> nth_error l j = Some y -> f y = false).
Proof.
  induction l as [|b l IH]; cbn; [tauto|]. intros Hin Hf. destruct (f b) eqn:Eb.
  - exists 0, b. repeat split; auto. intros; lia.
  - destruct Hin as [-> |Hin]; [congruence|]. destruct (IH Hin Hf) as (k & x & E & G & Fx & M).
    rewrite E. exists (S k), x. repeat split; auto. intros [|j] y Hj; cbn; [congruence|]. apply M. lia.
Qed.
(** removing the first equal location is removing the location of the team *)
Lemma remove_first_map (f : nat -> nat) t l : incr l -> (forall a b, In a l -> In b l -> a <= b -> f a <= f b) -> In t l ->
  remove_first (f t) (map f l) = map f (filter (fun x => negb (x =? t)) l).
Proof.
  intros H. induction H as [|a l Hs IH Ha]; cbn; [tauto|]. intros Mono Hin.
  rewrite Forall_forall in Ha.
  destruct (Nat.eqb_spec a t) as [-> |Hne]; cbn [negb].
  - rewrite Nat.eqb_refl. f_equal. rewrite P_InOut.filter_all; auto. intros x Hx. apply Ha in Hx. apply negb_true_iff, Nat.eqb_neq. lia.
  - destruct Hin as [|Hin]; [congruence|]. cbn [map].
    destruct (Nat.eqb_spec (f a) (f t)) as [E|E].
    + (* equal values in front: they are all equal up to [t] *)
      clear IH. revert a Hne Ha Hin Mono E. induction Hs as [|b l Hs IH Hb]; intros; [destruct Hin|].
      rewrite Forall_forall in Hb. cbn [filter]. destruct (Nat.eqb_spec b t) as [-> |Hbt]; cbn [negb map].
      * rewrite E. f_equal. rewrite P_InOut.filter_all; auto. intros x Hx. apply Hb in Hx. apply negb_true_iff, Nat.eqb_neq. lia.
      * destruct Hin as [|Hin]; [congruence|].
        assert (Eb : f b = f t).
        { specialize (Ha b (or_introl eq_refl)). specialize (Hb _ Hin).
          pose proof (Mono a b (or_introl eq_refl) (or_intror (or_introl eq_refl))).
          pose proof (Mono b t (or_intror (or_introl eq_refl)) (or_intror (or_intror Hin))). lia. }
        rewrite E, <- Eb. f_equal. apply (IH b); auto.
    + f_equal. apply IH; auto.
Qed.

(** ** Numbers *)
Lemma neqb_eq a b : neqb a b = true <-> a = b /\ notnan a.
Proof.
  split.
  - intro H. destruct a, b; cbn in *; try discriminate; try (split; [reflexivity|discriminate]).
    apply andb_true_iff in H as [H1 H2]. rewrite negb_true_iff, qltb_false in *.
    split; [|discriminate]. f_equal. apply Qcle_antisym; auto.
  - intros [<- Hn]. destruct a; cbn; auto. 
    assert (qltb q q = false) by (apply qltb_false; apply Qcle_refl). rewrite H; auto.
Qed.
Lemma py_max_ok l : l <> [] -> Forall notnan l -> exists m, py_max l = Some m /\ In m l /\ forall x, In x l -> nle x m.
Proof.
  destruct l as [|x l]; [congruence|]. intros _ F. inversion F as [|? ? Hx Hl]; subst. cbn [py_max].
  eexists. split; [reflexivity|].
  assert (G : forall l m, notnan m -> Forall notnan l ->
    let r := fold_left (fun m y => if ngt y m then y else m) l m in
    (r = m \/ In r l) /\ nle m r /\ forall y, In y l -> nle y r).
  { clear. induction l as [|y l IH]; intros m Hm F; cbn [fold_left].
    - cbn. split; auto. split; [apply nle_refl; auto|tauto].
    - inversion F as [|? ? Hy Hl]; subst. cbn zeta.
      destruct (ngt y m) eqn:E.
      + destruct (IH y Hy Hl) as (A & B & C). split; [|split].
        * destruct A as [-> |A]; [right; left; auto|right; right; auto].
        * eapply nle_trans; [apply nlt_true; exact E|exact B].
        * intros z [<- |Hz]; auto.
      + destruct (IH m Hm Hl) as (A & B & C). split; [|split].
        * destruct A as [-> |A]; [left; auto|right; right; auto].
        * auto.
        * intros z [<- |Hz]; auto. eapply nle_trans; [|exact B]. apply nlt_false; auto. }
  destruct (G l x Hx Hl) as (A & B & C). split.
  - destruct A as [-> |A]; [left; auto|right; auto].
  - intros y [<- |Hy]; auto.
Qed.

(** ** Objects *)
Section Object.
Variables (o : kc_obj) (teams : list team).
Hypothesis wf : wf_obj o teams.
Notation D := (length (o_caps o)).
Notation T := (length teams).
Notation tm t := (nth t teams (0, 0, 0)).
Definition loc_of (t : nat) : nat := match location (o_last o) t with Some i => i | None => 0 end.

Lemma team_at t : t < T -> nth_error teams t = Some (tm t).
Proof. intro H. apply nth_error_nth'; auto. Qed.
Lemma wf_team t : t < T -> in_range (o_caps o) (tm t) /\ sensible (tm t) /\ fits (o_caps o) 1 (tm t) /\
  location (o_last o) t = Some (loc_of t) /\ nth_error (o_combos o) (loc_of t) = Some (t_u (tm t), t_v (tm t)).
Proof.
  intro H. destruct wf as (_ & _ & _ & _ & X). destruct (X t _ (team_at t H)) as (A & B & C & loc & E1 & E2).
  split; auto. split; auto. split; auto. unfold loc_of. rewrite E1. auto.
Qed.
Lemma wf_weight d t : d < D -> t < T -> get2 (o_weights o) d t = Some (need (S d) (tm t)).
Proof.
  intros Hd Ht. destruct wf as (_ & _ & _ & X & _). unfold get2, get. specialize (X (S d)).
  replace (S d - 1) with d in X by lia. rewrite X by lia. cbn [bind]. rewrite nth_error_map, team_at by auto. reflexivity.
Qed.
Lemma wf_type t : t < T -> get (o_types o) t = Some (t_type (tm t)).
Proof.
  intro Ht. destruct wf as (_ & X & _). unfold get. rewrite X, nth_error_map, team_at by auto. reflexivity.
Qed.
Lemma nth_upd {A} (l : list A) i j (x y : A) : i < length l -> nth j (upd l i x) y = if i =? j then x else nth j l y.
Proof.
  intro H. destruct (Nat.eqb_spec i j) as [<- |Hne].
  - apply nth_error_nth. apply (get_upd_eq l i x H).
  - destruct (Nat.lt_ge_cases j (length l)).
    + apply nth_error_nth. change (get (upd l i x) j = Some (nth j l y)). rewrite get_upd_ne by auto. apply nth_error_nth'; auto.
    + rewrite !nth_overflow; auto. rewrite upd_length; auto.
Qed.

Lemma add_weights_ok tw t : length tw = D -> t < T ->
  exists tw', add_weights D (o_weights o) tw t = Some tw' /\ length tw' = D /\
    forall d, d < D -> nth d tw' 0%Z = (nth d tw 0 + Z.of_nat (need (S d) (tm t)))%Z.
Proof.
  intros L Ht. unfold add_weights, for_up. rewrite Nat.sub_0_r.
  assert (G : forall n a tw, a + n <= D -> length tw = D -> exists tw',
    foldM (fun tw j => w <- get2 (o_weights o) j t ;; if w =? 0 then Some tw else x <- get tw j ;; set tw j (x + Z.of_nat w)%Z)
      (seq a n) tw = Some tw' /\ length tw' = D /\
    forall d, d < D -> nth d tw' 0%Z = (nth d tw 0 + if (a <=? d)%nat && (d <? a + n)%nat then Z.of_nat (need (S d) (tm t)) else 0)%Z).
  { induction n as [|n IH]; intros a tw0 Ha L0; cbn [seq foldM].
    - exists tw0. split; auto. split; auto. intros d Hd.
      destruct (Nat.leb_spec a d), (Nat.ltb_spec d (a + 0)); cbn [andb]; lia.
    - rewrite wf_weight by lia. cbn [bind].
      destruct (Nat.eqb_spec (need (S a) (tm t)) 0) as [Ez|Ez].
      + cbn [bind]. destruct (IH (S a) tw0) as (tw' & E & L' & N); [lia|auto|]. exists tw'. split; auto. split; auto.
        intros d Hd. rewrite N by auto.
        destruct (Nat.leb_spec (S a) d), (Nat.ltb_spec d (S a + n)), (Nat.leb_spec a d), (Nat.ltb_spec d (a + S n)); cbn [andb]; try lia.
        assert (d = a) by lia. subst d. lia.
      + unfold get at 1. rewrite (nth_error_nth' tw0 0%Z) by lia. cbn [bind]. rewrite set_lt by lia. cbn [bind].
        destruct (IH (S a) (upd tw0 a (nth a tw0 0 + Z.of_nat (need (S a) (tm t)))%Z)) as (tw' & E & L' & N);
          [lia|rewrite upd_length; auto|]. exists tw'. split; auto. split; auto.
        intros d Hd. rewrite N by auto. rewrite nth_upd by lia. destruct (Nat.eqb_spec a d) as [Had|Had]; [rewrite Had in *|];
        destruct (Nat.leb_spec (S a) d), (Nat.ltb_spec d (S a + n)), (Nat.leb_spec a d), (Nat.ltb_spec d (a + S n)); try lia;
        rewrite ?Had; repeat (match goal with |- context [(?x <=? ?y)%nat] => destruct (Nat.leb_spec x y) | |- context [(?x <? ?y)%nat] => destruct (Nat.ltb_spec x y) end; try lia); cbn [andb]; lia. }
  destruct (G D 0 tw) as (tw' & E & L' & N); [lia|auto|]. exists tw'. split; [exact E|]. split; auto.
  intros d Hd. rewrite N by auto.
  destruct (Nat.leb_spec 0 d), (Nat.ltb_spec d (0 + D)); cbn [andb]; lia.
Qed.
Definition weights_are (tw : list Z) (sel : list nat) : Prop :=
  length tw = D /\ forall d, d < D -> nth d tw 0%Z = Z.of_nat (used teams (S d) sel).
Lemma used_app d a b : used teams d (a ++ b) = used teams d a + used teams d b.
Proof. unfold used. rewrite map_app, list_sum_app. reflexivity. Qed.
Lemma used_one d t : used teams d [t] = need d (tm t).
Proof. unfold used. cbn. lia. Qed.
Lemma add_all_ok sel : Forall (fun t => t < T) sel ->
  exists tw, foldM (add_weights D (o_weights o)) sel (repeat 0%Z D) = Some tw /\ weights_are tw sel.
Proof.
  intro F.
  assert (G : forall sel done tw, Forall (fun t => t < T) sel -> weights_are tw done ->
    exists tw', foldM (add_weights D (o_weights o)) sel tw = Some tw' /\ weights_are tw' (done ++ sel)).
  { clear sel F. induction sel as [|t sel IH]; intros done tw F [L N]; cbn [foldM].
    - exists tw. rewrite app_nil_r. split; auto. split; auto.
    - inversion F; subst. destruct (add_weights_ok tw t) as (tw1 & E & L1 & N1); auto. rewrite E. cbn [bind].
      destruct (IH (done ++ [t]) tw1) as (tw' & E' & R); auto.
      + split; auto. intros d Hd. rewrite N1, N, used_app, used_one by auto. lia.
      + exists tw'. split; auto. rewrite <- app_assoc in R. exact R. }
  apply (G sel [] (repeat 0%Z D) F). split; [apply repeat_length|]. intros d Hd. unfold used. cbn [map list_sum fold_right].
  clear - Hd. revert d Hd. induction D; intros [|d] Hd; cbn; auto; try lia. apply IHn. lia.
Qed.
Lemma exceeding_iff tw sel d : weights_are tw sel ->
  (In d (exceeding (o_caps o) tw) <-> overfull (o_caps o) teams sel (S d)).
Proof.
  intros [L N]. unfold exceeding, overfull. rewrite filter_In, in_seq, L. cbn [Nat.sub]. rewrite Nat.sub_0_r. split.
  - intros [Hd E]. rewrite N in E by lia. apply Z.ltb_lt in E. lia.
  - intros [Hd E]. rewrite N by lia. split; [lia|]. apply Z.ltb_lt. lia.
Qed.
Lemma exceeding_first tw sel d l : weights_are tw sel -> exceeding (o_caps o) tw = d :: l ->
  overfull (o_caps o) teams sel (S d) /\ forall d', d' < S d -> ~ overfull (o_caps o) teams sel d'.
Proof.
  intros HW E. split; [apply (exceeding_iff tw sel); auto; rewrite E; left; auto|].
  intros d' Hd Ho. pose proof Ho as [Hr _]. replace d' with (S (d' - 1)) in Ho by lia.
  apply (exceeding_iff tw) in Ho; auto. rewrite E in Ho.
  assert (S1 : incr (d :: l)) by (rewrite <- E; apply incr_filter, incr_seq).
  inversion S1 as [|? ? ? F]; subst. rewrite Forall_forall in F. destruct Ho as [|Ho]; [lia|]. apply F in Ho. lia.
Qed.
Lemma not_exceeding tw sel : weights_are tw sel ->
  (exceeding (o_caps o) tw = [] <-> within_capacity (o_caps o) teams sel).
Proof.
  intro HW. split.
  - intros E d Hd. destruct (Nat.le_gt_cases (used teams d sel) (nth (d - 1) (o_caps o) 0)) as [|Hgt]; auto.
    exfalso. assert (In (d - 1) (exceeding (o_caps o) tw)).
    { apply (exceeding_iff tw sel); auto. replace (S (d - 1)) with d by lia. split; auto. }
    rewrite E in H. destruct H.
  - intro Hc. destruct (exceeding (o_caps o) tw) as [|d l] eqn:E; auto. exfalso.
    destruct (exceeding_first tw sel d l HW E) as [[Hr Ho] _]. specialize (Hc _ Hr). lia.
Qed.

Record linv (l : kc_loop) : Prop := {
  li_incr : incr (l_sel l);
  li_lt : Forall (fun t => t < T) (l_sel l);
  li_locs : l_locs l = map loc_of (l_sel l);
  li_w : weights_are (l_weights l) (l_sel l) }.

Definition cu (t : nat) : nat * nat := (t_u (tm t), t_v (tm t)).
Lemma li_In l t : linv l -> In t (l_sel l) -> t < T.
Proof. intros H Hin. pose proof (li_lt l H) as F. rewrite Forall_forall in F. auto. Qed.
Lemma combo_of_ok l t : linv l -> In t (l_sel l) -> combo_of o l t = Some (cu t).
Proof.
  intros H Hin. unfold combo_of. destruct (index_of_ok _ _ Hin) as (k & E & G). rewrite E. cbn [bind].
  rewrite (li_locs l H). unfold get. rewrite nth_error_map, G. cbn [option_map bind].
  apply wf_team. eapply li_In; eauto.
Qed.
Lemma mapM_const {A B} (f : A -> option B) (g : A -> B) l : (forall a, In a l -> f a = Some (g a)) -> mapM f l = Some (map g l).
Proof. induction l as [|a l IH]; cbn; auto. intro H. rewrite H by auto. cbn [bind]. rewrite IH by auto. reflexivity. Qed.
Lemma mapM_combo l : linv l -> mapM (combo_of o l) (l_sel l) = Some (map cu (l_sel l)).
Proof. intro H. apply mapM_const. intros. apply combo_of_ok; auto. Qed.
Lemma combine_map_r {A B} (f : A -> B) l : combine l (map f l) = map (fun a => (a, f a)) l.
Proof. induction l; cbn; congruence. Qed.
Lemma in_combo_iff d t : t < T -> (in_combo d (cu t) = true <-> in_dept teams (S d) t).
Proof.
  intro Ht. destruct (wf_team t Ht) as ((Hu & Hv & _) & _). unfold in_combo, in_dept, cu, u_of, v_of. cbn [fst snd].
  rewrite orb_true_iff, !Nat.eqb_eq. lia.
Qed.

(** ** Removal *)
Variable intr : list num.
Hypothesis intr_len : length intr = T.
Hypothesis intr_ok : Forall notnan intr.
Definition val (t : nat) : num := nth t intr NaN.
Lemma val_ok t : t < T -> get intr t = Some (val t) /\ notnan (val t).
Proof.
  intro H. unfold val, get. split; [apply nth_error_nth'; lia|]. rewrite Forall_forall in intr_ok.
  apply intr_ok. apply nth_In. lia.
Qed.
Lemma removed_ok l cand : linv l -> cand <> [] -> (forall t, In t cand -> In t (l_sel l)) ->
  exists t, removed_team intr l cand = Some t /\ largest_of val (fun t => In t cand) (l_sel l) t.
Proof.
  intros H Hne Hsub. unfold removed_team.
  rewrite (mapM_const _ val) by (intros t Ht; apply val_ok; eapply li_In; eauto). cbn [bind].
  rewrite (mapM_const _ val).
  2:{ intros t Ht. unfold get. rewrite nth_error_map, searchsorted_ok; auto. apply (li_incr l H). }
  cbn [bind].
  destruct (py_max_ok (map val cand)) as (m & Em & Hin & Hmax).
  { destruct cand; [congruence|discriminate]. }
  { apply Forall_map, Forall_forall. intros t Ht. apply val_ok. eapply li_In; eauto. }
  rewrite Em. cbn [bind]. apply in_map_iff in Hin as (t0 & <- & Ht0).
  assert (T0 : t0 < T) by (eapply li_In; eauto).
  destruct (find_index_ok (fun x => neqb x (val t0)) (map val (l_sel l)) (val t0)) as (k & x & Ek & Gk & Fx & First).
  { apply in_map. auto. }
  { apply neqb_eq. split; auto. apply val_ok; auto. }
  rewrite Ek. cbn [bind]. rewrite nth_error_map in Gk.
  destruct (nth_error (l_sel l) k) as [t|] eqn:Et; [|discriminate]. injection Gk as <-.
  apply neqb_eq in Fx as [Fx _].
  exists t. split; [exact Et|]. split; [eapply nth_error_In; eauto|]. split.
  - exists t0. split; auto. split; auto. split; auto. intros t1 _ Ht1. apply Hmax. apply in_map; auto.
  - intros t1 Hin1 Hlt E. apply In_nth_error in Hin1 as (j & Ej).
    assert (Hj : j < k).
    { destruct (Nat.lt_ge_cases j k) as [|Hge]; auto. exfalso.
      assert (Hle : t <= t1); [|lia].
      clear - Hge Ej Et H. pose proof (li_incr l H) as Hi. revert j k Hge Ej Et.
      induction Hi as [|a r Hs IH Ha]; intros [|j] [|k] Hge Ej Et; cbn in *; try discriminate; try lia.
      - injection Ej as <-. injection Et as <-. lia.
      - injection Et as <-. rewrite Forall_forall in Ha. apply nth_error_In in Ej. apply Ha in Ej. lia.
      - apply (IH j k); auto. lia. }
    specialize (First j (val t1) Hj). rewrite nth_error_map, Ej in First. specialize (First eq_refl).
    assert (neqb (val t1) (val t0) = true); [|congruence].
    apply neqb_eq. split; [congruence|]. apply val_ok. eapply li_In; eauto. eapply nth_error_In; eauto.
Qed.

Lemma used_remove d t l : NoDup l -> In t l -> used teams d l = used teams d (filter (fun x => negb (x =? t)) l) + need d (tm t).
Proof.
  induction l as [|a l IH]; intros ND Hin; [destruct Hin|]. inversion ND as [|? ? Na ND']; subst.
  change (a :: l) with ([a] ++ l). rewrite used_app, used_one. cbn [app filter].
  destruct (Nat.eqb_spec a t) as [-> |Hne]; cbn [negb].
  - rewrite P_InOut.filter_all; [lia|]. intros x Hx. apply negb_true_iff, Nat.eqb_neq. congruence.
  - destruct Hin as [|Hin]; [congruence|]. change (a :: filter ?f l) with ([a] ++ filter f l).
    rewrite used_app, used_one, (IH ND' Hin). lia.
Qed.
Lemma sub_at_ok w d k : d < length w -> exists w', sub_at w d k = Some w' /\ length w' = length w /\
  forall j, nth j w' 0%Z = (nth j w 0 - if (d =? j)%nat then k else 0)%Z.
Proof.
  intro H. unfold sub_at, get. rewrite (nth_error_nth' w 0%Z) by auto. cbn [bind]. rewrite set_lt by auto.
  eexists. split; [reflexivity|]. split; [apply upd_length|]. intro j. rewrite nth_upd by auto.
  destruct (Nat.eqb_spec d j) as [-> |]; lia.
Qed.
Lemma release_ok w t : length w = D -> t < T ->
  exists w', release w (t_u (tm t) - 1) (t_v (tm t) - 1) (t_type (tm t)) = Some w' /\ length w' = D /\
    forall d, d < D -> nth d w' 0%Z = (nth d w 0 - Z.of_nat (need (S d) (tm t)))%Z.
Proof.
  intros L Ht. destruct (wf_team t Ht) as ((Hu & Hv & Hty) & Hs & _).
  destruct (tm t) as [[u v] ty]. cbn [t_u t_v t_type fst snd] in *. unfold sensible in Hs. cbn [t_u t_v t_type fst snd] in Hs.
  unfold need. cbn [t_u t_v t_type fst snd].
  assert (S1 : forall w k, length w = D -> exists w', sub_at w (u - 1) k = Some w' /\ length w' = D /\
     forall d, d < D -> nth d w' 0%Z = (nth d w 0 - if (S d =? u)%nat then k else 0)%Z).
  { intros w0 k L0. destruct (sub_at_ok w0 (u - 1) k) as (w' & E & L' & N); [lia|]. exists w'. split; auto. split; [lia|].
    intros d Hd. rewrite N. destruct (Nat.eqb_spec (u - 1) d), (Nat.eqb_spec (S d) u); lia. }
  assert (S2 : forall w k, length w = D -> exists w', sub_at w (v - 1) k = Some w' /\ length w' = D /\
     forall d, d < D -> nth d w' 0%Z = (nth d w 0 - if (S d =? v)%nat then k else 0)%Z).
  { intros w0 k L0. destruct (sub_at_ok w0 (v - 1) k) as (w' & E & L' & N); [lia|]. exists w'. split; auto. split; [lia|].
    intros d Hd. rewrite N. destruct (Nat.eqb_spec (v - 1) d), (Nat.eqb_spec (S d) v); lia. }
  destruct (type_cases ty Hty) as [-> |[-> |[-> |[-> | ->]]]]; cbn [release members fst snd] in *.
  - destruct (S1 w 1%Z L) as (w1 & E1 & L1 & N1). exists w1. split; auto. split; auto. intros d Hd. rewrite N1 by auto.
    destruct (Nat.eqb_spec (S d) u), (Nat.eqb_spec (S d) v); lia.
  - destruct (S1 w 1%Z L) as (w1 & E1 & L1 & N1). rewrite E1. cbn [bind].
    destruct (S2 w1 1%Z L1) as (w2 & E2 & L2 & N2). exists w2. split; auto. split; auto. intros d Hd. rewrite N2, N1 by auto.
    destruct (Nat.eqb_spec (S d) u), (Nat.eqb_spec (S d) v); lia.
  - destruct (S1 w 2%Z L) as (w1 & E1 & L1 & N1). exists w1. split; auto. split; auto. intros d Hd. rewrite N1 by auto.
    destruct (Nat.eqb_spec (S d) u), (Nat.eqb_spec (S d) v); lia.
  - destruct (S1 w 2%Z L) as (w1 & E1 & L1 & N1). rewrite E1. cbn [bind].
    destruct (S2 w1 1%Z L1) as (w2 & E2 & L2 & N2). exists w2. split; auto. split; auto. intros d Hd. rewrite N2, N1 by auto.
    destruct (Nat.eqb_spec (S d) u), (Nat.eqb_spec (S d) v); lia.
  - destruct (S1 w 2%Z L) as (w1 & E1 & L1 & N1). rewrite E1. cbn [bind].
    destruct (S2 w1 2%Z L1) as (w2 & E2 & L2 & N2). exists w2. split; auto. split; auto. intros d Hd. rewrite N2, N1 by auto.
    destruct (Nat.eqb_spec (S d) u), (Nat.eqb_spec (S d) v); lia.
Qed.
Lemma remove_ok l t : linv l -> In t (l_sel l) ->
  exists l', remove_team o l t = Some l' /\ linv l' /\ l_sel l' = filter (fun x => negb (x =? t)) (l_sel l).
Proof.
  intros H Hin. assert (Ht : t < T) by (eapply li_In; eauto). unfold remove_team.
  destruct (index_of_ok _ _ Hin) as (k & E & G). rewrite E. cbn [bind].
  rewrite (li_locs l H). unfold get at 1. rewrite nth_error_map, G. cbn [option_map bind].
  destruct (wf_team t Ht) as (_ & _ & _ & _ & Ec). unfold get at 1. rewrite Ec. cbn [bind fst snd].
  rewrite wf_type by auto. cbn [bind].
  destruct (li_w l H) as [Lw Nw].
  destruct (release_ok (l_weights l) t) as (w & Ew & Lw' & Nw'); auto. rewrite Ew. cbn [bind].
  eexists. split; [reflexivity|]. cbn [l_sel]. split; auto. constructor; cbn [l_sel l_locs l_weights].
  - apply incr_filter, (li_incr l H).
  - pose proof (li_lt l H) as F. rewrite Forall_forall in *. intros x Hx. apply filter_In in Hx as [Hx _]. auto.
  - apply remove_first_map; auto; [apply (li_incr l H)|].
    intros a b Ha Hb Hab. pose proof (li_In l a H Ha) as La. pose proof (li_In l b H Hb) as Lb.
    destruct (wf_team a La) as (_ & _ & _ & Ea & _). destruct (wf_team b Lb) as (_ & _ & _ & Eb & _).
    exact (location_mono _ a b _ _ Hab Ea Eb).
  - split; auto. intros d Hd. rewrite Nw', Nw by auto.
    rewrite (used_remove (S d) t (l_sel l)); auto; [lia|]. apply incr_NoDup, (li_incr l H).
Qed.

(** ** Candidates *)
Lemma used_pos d sel : 0 < used teams d sel -> exists t, In t sel /\ 0 < need d (tm t).
Proof.
  induction sel as [|a sel IH]; [unfold used; cbn; lia|]. change (a :: sel) with ([a] ++ sel). rewrite used_app, used_one.
  intro H. destruct (Nat.eq_dec (need d (tm a)) 0) as [E|E].
  - destruct IH as (t & Hin & Ht); [lia|]. exists t. split; auto. right. auto.
  - exists a. split; [left; auto|lia].
Qed.
Lemma overfull_team sel d : overfull (o_caps o) teams sel d -> exists t, In t sel /\ in_dept teams d t.
Proof.
  intros [_ H]. destruct (used_pos d sel) as (t & Hin & Ht); [lia|]. exists t. split; auto.
  unfold need in Ht. unfold in_dept, u_of, v_of.
  destruct (Nat.eqb_spec d (t_u (tm t))); auto. destruct (Nat.eqb_spec d (t_v (tm t))); auto. lia.
Qed.
Lemma dept_cand_ok l d ex : linv l -> exceeding (o_caps o) (l_weights l) = d :: ex ->
  exists cand, dept_candidates o l = Some cand /\ cand <> [] /\
    (forall t, In t cand <-> In t (l_sel l) /\ in_dept teams (S d) t).
Proof.
  intros H E. unfold dept_candidates. rewrite mapM_combo by auto. cbn [bind]. rewrite E.
  eexists. split; [reflexivity|]. rewrite combine_map_r.
  assert (X : forall t, In t (map fst (filter (fun tc : nat * (nat * nat) => in_combo d (snd tc)) (map (fun a => (a, cu a)) (l_sel l)))) <->
     In t (l_sel l) /\ in_dept teams (S d) t).
  { intro t. rewrite in_map_iff. split.
    - intros ([a c] & <- & Hin). apply filter_In in Hin as [Hin Hd]. apply in_map_iff in Hin as (b & Eb & Hb).
      injection Eb as -> <-. cbn [fst snd] in *. split; auto. apply in_combo_iff; auto. eapply li_In; eauto.
    - intros [Hin Hd]. exists (t, cu t). split; auto. apply filter_In. split.
      + apply in_map_iff. eauto.
      + apply in_combo_iff; auto. eapply li_In; eauto. }
  split; auto. intro En.
  destruct (exceeding_first _ _ _ _ (li_w l H) E) as [Ho _]. destruct (overfull_team _ _ Ho) as (t & Hin & Hd).
  assert (In t []); [|auto]. rewrite <- En. apply X. auto.
Qed.
Lemma fold_union (g : nat -> list (nat * (nat * nat))) ex : forall acc,
  (forall x, In x acc -> x = (fst x, cu (fst x))) -> (forall d x, In x (g d) -> x = (fst x, cu (fst x))) ->
  forall x, In x (fold_left (fun acc d => acc ++ filter (fun tc => negb (mem (fst tc) (map fst acc))) (g d)) ex acc) <->
    In x acc \/ exists d, In d ex /\ In x (g d).
Proof.
  induction ex as [|d ex IH]; intros acc Ha Hg x; cbn [fold_left].
  - split; [auto|]. intros [|(d & [] & _)]; auto.
  - rewrite IH; auto.
    + rewrite in_app_iff, filter_In. split.
      * intros [[|[Hx _]]|(d' & Hd & Hx)]; auto; right; [exists d; split; [left; auto|auto]|exists d'; split; [right; auto|auto]].
      * intros [|(d' & [<- |Hd] & Hx)]; auto; [|right; eauto].
        left. destruct (mem (fst x) (map fst acc)) eqn:Em; [|right; split; auto].
        left. apply mem_iff, in_map_iff in Em as (y & Ey & Hy).
        rewrite (Hg _ _ Hx), <- Ey, <- (Ha _ Hy). auto.
    + intros y Hy. apply in_app_iff in Hy as [|Hy]; auto. apply filter_In in Hy as [Hy _]. eauto.
Qed.
Lemma mem_ex l u : linv l -> 1 <= u <= D ->
  (mem (u - 1) (exceeding (o_caps o) (l_weights l)) = true <-> overfull (o_caps o) teams (l_sel l) u).
Proof.
  intros H Hu. rewrite mem_iff, (exceeding_iff _ (l_sel l)) by apply (li_w l H). replace (S (u - 1)) with u by lia. tauto.
Qed.
Lemma team_cand_ok l : linv l -> exceeding (o_caps o) (l_weights l) <> [] ->
  exists cand, team_candidates o l = Some cand /\ cand <> [] /\
    (forall t, In t cand <-> In t (l_sel l) /\ candidate_2' (o_caps o) teams (l_sel l) t).
Proof.
  intros H E. unfold team_candidates. rewrite mapM_combo by auto. cbn [bind]. rewrite combine_map_r.
  set (ex := exceeding (o_caps o) (l_weights l)) in *. set (tcs := map (fun a => (a, cu a)) (l_sel l)).
  set (both := fun d => filter (fun tc : nat * (nat * nat) => in_combo d (snd tc) && mem (fst (snd tc) - 1) ex && mem (snd (snd tc) - 1) ex) tcs).
  set (one := fun d => filter (fun tc : nat * (nat * nat) => in_combo d (snd tc)) tcs).
  set (of_dept := fun d => match both d with [] => one d | _ => both d end).
  set (all := fold_left (fun acc d => acc ++ filter (fun tc => negb (mem (fst tc) (map fst acc))) (of_dept d)) ex []).
  set (two := filter (fun tc : nat * (nat * nat) => negb (fst (snd tc) =? snd (snd tc))) all).
  exists (map fst (match two with [] => all | _ => two end)). split; [reflexivity|].
  assert (Itcs : forall x, In x tcs <-> x = (fst x, cu (fst x)) /\ In (fst x) (l_sel l)).
  { intros [a c]. unfold tcs. rewrite in_map_iff. cbn [fst]. split.
    - intros (b & Eb & Hb). injection Eb as -> <-. auto.
    - intros [Ec Ha]. exists a. rewrite Ec. auto. }
  assert (Iboth : forall d x, In x (both d) <-> x = (fst x, cu (fst x)) /\ In (fst x) (l_sel l) /\
      in_dept teams (S d) (fst x) /\ both_over (o_caps o) teams (l_sel l) (fst x)).
  { intros d x. unfold both. rewrite filter_In, Itcs. split.
    - intros [[Ex Hin] Hb]. split; auto. split; auto. pose proof (li_In l _ H Hin) as Lt.
      destruct (wf_team _ Lt) as ((Hu & Hv & _) & _). rewrite Ex in Hb. cbn [snd] in Hb. unfold cu at 2 3 in Hb. cbn [fst snd] in Hb.
      rewrite !andb_true_iff, in_combo_iff in Hb by auto. destruct Hb as [[H1 H2] H3].
      apply mem_ex in H2; auto. apply mem_ex in H3; auto. split; auto. split; auto.
    - intros (Ex & Hin & Hd & [H2 H3]). split; auto. pose proof (li_In l _ H Hin) as Lt.
      destruct (wf_team _ Lt) as ((Hu & Hv & _) & _). rewrite Ex. cbn [snd]. unfold cu at 2 3. cbn [fst snd].
      rewrite !andb_true_iff, in_combo_iff by auto. split; [split; auto|]; apply mem_ex; auto. }
  assert (Ione : forall d x, In x (one d) <-> x = (fst x, cu (fst x)) /\ In (fst x) (l_sel l) /\ in_dept teams (S d) (fst x)).
  { intros d x. unfold one. rewrite filter_In, Itcs. split.
    - intros [[Ex Hin] Hb]. split; auto. split; auto. rewrite Ex in Hb. cbn [snd] in Hb. apply in_combo_iff in Hb; auto. eapply li_In; eauto.
    - intros (Ex & Hin & Hd). split; auto. rewrite Ex. cbn [snd]. apply in_combo_iff; auto. eapply li_In; eauto. }
  assert (Iof : forall d x, In x (of_dept d) <-> x = (fst x, cu (fst x)) /\ In (fst x) (l_sel l) /\ in_dept teams (S d) (fst x) /\
      (both_over (o_caps o) teams (l_sel l) (fst x) \/
       ~ exists t', In t' (l_sel l) /\ in_dept teams (S d) t' /\ both_over (o_caps o) teams (l_sel l) t')).
  { intros d x. unfold of_dept. destruct (both d) as [|b bs] eqn:Eb.
    - rewrite Ione.
      assert (N : ~ exists t', In t' (l_sel l) /\ in_dept teams (S d) t' /\ both_over (o_caps o) teams (l_sel l) t').
      { intros (t' & H1 & H2 & H3). assert (In (t', cu t') []); [|auto]. rewrite <- Eb. apply Iboth. cbn. auto. }
      tauto.
    - rewrite <- Eb, Iboth. split; [tauto|]. intros (H1 & H2 & H3 & [H4|H4]); auto.
      exfalso. apply H4. assert (Hb : In b (both d)) by (rewrite Eb; left; auto). apply Iboth in Hb. exists (fst b). tauto. }
  assert (Iall : forall x, In x all <-> x = (fst x, cu (fst x)) /\ In (fst x) (l_sel l) /\ candidate_2 (o_caps o) teams (l_sel l) (fst x)).
  { intro x. unfold all. rewrite fold_union.
    - split.
      + intros [[]|(d & Hd & Hx)]. apply Iof in Hx as (H1 & H2 & H3 & H4). split; auto. split; auto.
        exists (S d). split; auto. apply (exceeding_iff (l_weights l)); auto. apply (li_w l H).
      + intros (H1 & H2 & (d & H3 & H4 & H5)). right. exists (d - 1).
        assert (Hd : S (d - 1) = d) by (destruct H3; lia). split.
        * apply (exceeding_iff (l_weights l) (l_sel l)); [apply (li_w l H)|]. rewrite Hd. auto.
        * apply Iof. rewrite Hd. auto.
    - intros y [].
    - intros d y Hy. apply Iof in Hy. tauto. }
  assert (Itwo : forall x, In x two <-> In x all /\ u_of teams (fst x) <> v_of teams (fst x)).
  { intro x. unfold two. rewrite filter_In. split; intros [H1 H2]; split; auto; apply Iall in H1 as [Ex _]; rewrite Ex in *.
    - cbn [fst snd] in *. apply negb_true_iff, Nat.eqb_neq in H2. exact H2.
    - cbn [fst snd] in *. apply negb_true_iff, Nat.eqb_neq. exact H2. }
  assert (X : forall t, In t (map fst (match two with [] => all | _ => two end)) <->
     In t (l_sel l) /\ candidate_2' (o_caps o) teams (l_sel l) t).
  { intro t. rewrite in_map_iff. destruct two as [|b bs] eqn:Eb.
    - split.
      + intros (x & <- & Hx). apply Iall in Hx as Hc. destruct Hc as (H1 & H2 & H3). split; auto. split; auto. right.
        intros (t' & Ht' & Hc' & Hne). assert (In (t', cu t') []); [|auto]. apply Itwo. split; auto. apply Iall. cbn. auto.
      + intros [H1 [H2 _]]. exists (t, cu t). split; auto. apply Iall. cbn. auto.
    - split.
      + intros (x & <- & Hx). apply Itwo in Hx as [Hx Hne]. apply Iall in Hx as (H1 & H2 & H3). split; auto. split; auto.
      + intros [H1 [H2 H3]]. exists (t, cu t). split; auto. apply Itwo. split; [apply Iall; cbn; auto|]. cbn [fst].
        destruct H3 as [H3|H3]; auto. exfalso. apply H3.
        assert (Hb : In b (b :: bs)) by (left; auto). apply Itwo in Hb as [Hb Hne]. apply Iall in Hb as (B1 & B2 & B3). eauto. }
  split; auto.
  destruct ex as [|d ex'] eqn:Eex; [congruence|].
  destruct (exceeding_first _ _ _ _ (li_w l H) Eex) as [Ho _].
  assert (Hc : exists x, In x all).
  { destruct (both d) as [|b bs] eqn:Eb.
    - destruct (overfull_team _ _ Ho) as (t & Hin & Hd). exists (t, cu t). apply Iall. cbn [fst]. split; auto. split; auto.
      exists (S d). split; auto. split; auto. right. intros (t' & H1 & H2 & H3).
      assert (In (t', cu t') []); [|auto]. rewrite <- Eb. apply Iboth. cbn. auto.
    - assert (Hb : In b (both d)) by (rewrite Eb; left; auto). apply Iboth in Hb as (B1 & B2 & B3 & B4).
      exists b. apply Iall. split; auto. split; auto. exists (S d). auto. }
  destruct Hc as (x & Hx). intro En. destruct two as [|b bs] eqn:E2; [|cbn in En; discriminate En].
  destruct all; [destruct Hx|cbn in En; discriminate En].
Qed.

(** ** The loops *)
Lemma largest_iff c1 c2 sel t : (forall t, In t sel -> (c1 t <-> c2 t)) -> largest_of val c1 sel t -> largest_of val c2 sel t.
Proof.
  intros H (A & (t0 & B1 & B2 & B3 & B4) & C). split; auto. split; auto. exists t0. split; auto. split; [apply H; auto|].
  split; auto. intros t1 H1 H2. apply B4; auto. apply H; auto.
Qed.
Lemma filter_length_lt t l : In t l -> length (filter (fun x => negb (x =? t)) l) < length l.
Proof.
  induction l as [|a l IH]; intro H; [destruct H|]. cbn [filter].
  assert (L : length (filter (fun x => negb (x =? t)) l) <= length l).
  { clear. induction l as [|b l IH]; cbn [filter length]; auto. destruct (negb (b =? t)); cbn [length]; lia. }
  destruct (Nat.eqb_spec a t) as [-> |Hne]; cbn [negb length]; [lia|]. destruct H as [|H]; [congruence|]. specialize (IH H). lia.
Qed.
Lemma repair_ok cands (step : list nat -> nat -> Prop) :
  (forall l, linv l -> exceeding (o_caps o) (l_weights l) <> [] ->
     exists cand, cands o l = Some cand /\ cand <> [] /\ (forall t, In t cand -> In t (l_sel l)) /\
       (forall t, largest_of val (fun t => In t cand) (l_sel l) t -> step (l_sel l) t)) ->
  forall fuel l, linv l -> length (l_sel l) <= fuel ->
  exists l', repair cands fuel o intr l = Some l' /\ linv l' /\ removals (o_caps o) teams step (l_sel l) (l_sel l').
Proof.
  intro Hc. induction fuel as [|fuel IH]; intros l H Hf; cbn [repair];
    destruct (exceeding (o_caps o) (l_weights l)) as [|d ex] eqn:E; cbn [nonempty].
  - exists l. split; auto. split; auto. apply rem_stop. apply (not_exceeding (l_weights l)); auto. apply (li_w l H).
  - exfalso. destruct (Hc l H) as (cand & _ & Hne & Hsub & _); [congruence|].
    destruct cand as [|t cand]; [congruence|]. specialize (Hsub t (or_introl eq_refl)).
    destruct (l_sel l); [destruct Hsub|cbn in Hf; lia].
  - exists l. split; auto. split; auto. apply rem_stop. apply (not_exceeding (l_weights l)); auto. apply (li_w l H).
  - destruct (Hc l H) as (cand & Ec & Hne & Hsub & Hstep); [congruence|]. rewrite Ec. cbn [bind].
    destruct (removed_ok l cand H Hne Hsub) as (t & Et & Ht). rewrite Et. cbn [bind].
    pose proof Ht as [Hin _].
    destruct (remove_ok l t H Hin) as (l1 & E1 & H1 & S1). rewrite E1. cbn [bind].
    destruct (IH l1 H1) as (l' & E' & H' & R').
    { rewrite S1. pose proof (filter_length_lt t (l_sel l) Hin). lia. }
    exists l'. split; auto. split; auto. apply rem_more with (t := t); [|auto|rewrite <- S1; auto].
    intro Hw. apply (not_exceeding (l_weights l)) in Hw; [congruence|]. apply (li_w l H).
Qed.
Lemma repair_1 l : linv l ->
  exists l', repair dept_candidates (length (l_sel l)) o intr l = Some l' /\ linv l' /\
    removals (o_caps o) teams (removes_1 (o_caps o) teams val) (l_sel l) (l_sel l').
Proof.
  intro H. apply repair_ok; auto. clear l H. intros l H E.
  destruct (exceeding (o_caps o) (l_weights l)) as [|d ex] eqn:Ex; [congruence|].
  destruct (dept_cand_ok l d ex H Ex) as (cand & Ec & Hne & Hin). exists cand. split; auto. split; auto. split.
  - intros t Ht. apply Hin in Ht. tauto.
  - intros t Ht. destruct (exceeding_first _ _ _ _ (li_w l H) Ex) as [H1 H2]. exists (S d). split; auto. split; auto.
    eapply largest_iff; [|exact Ht]. intros x Hx. cbn beta. rewrite Hin. tauto.
Qed.
Lemma repair_2 l : linv l ->
  exists l', repair team_candidates (length (l_sel l)) o intr l = Some l' /\ linv l' /\
    removals (o_caps o) teams (removes_2 (o_caps o) teams val) (l_sel l) (l_sel l').
Proof.
  intro H. apply repair_ok; auto. clear l H. intros l H E.
  destruct (team_cand_ok l H E) as (cand & Ec & Hne & Hin). exists cand. split; auto. split; auto. split.
  - intros t Ht. apply Hin in Ht. tauto.
  - intros t Ht. eapply largest_iff; [|exact Ht]. intros x Hx. cbn beta. rewrite Hin. tauto.
Qed.
End Object.
