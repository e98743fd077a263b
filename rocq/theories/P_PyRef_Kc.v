(** * Proofs: the pure Python KC-MWM updates against the C++ ones. *)
From Verif Require Import Num NumFacts Arr ArrFacts MinSum MinSumFacts M_Knapsack M_Kc_Trellis
  M_Equality M_InOut P_Tsp_Constraints P_Kc_Trellis P_Ksat P_Knapsack P_Team_Knapsack P_Equality P_InOut
  M_PyRef M_PyRef_Kc P_PyRef.
Local Open Scope nat_scope.

Lemma mapM_seq_ex {B} (f : nat -> option B) (P : nat -> B -> Prop) n :
  (forall a, a < n -> exists v, f a = Some v /\ P a v) ->
  exists vs, mapM f (seq 0 n) = Some vs /\ length vs = n /\ forall a, a < n -> exists v, get vs a = Some v /\ P a v.
Proof.
  enough (G : forall n s, (forall a, s <= a < s + n -> exists v, f a = Some v /\ P a v) ->
    exists vs, mapM f (seq s n) = Some vs /\ length vs = n /\
      forall a, a < n -> exists v, get vs a = Some v /\ P (s + a) v).
  { intros H. destruct (G n 0) as (vs & E & L & X); [intros; apply H; lia|]. exists vs. auto. }
  clear n. induction n as [|n IH]; intros s H; cbn [seq mapM].
  - exists []. split; auto. split; auto. intros; lia.
  - destruct (H s) as (v & -> & Pv); [lia|]. cbn [bind].
    destruct (IH (S s)) as (vs & -> & L & X); [intros; apply H; lia|]. cbn [bind].
    exists (v :: vs). split; auto. split; [cbn; lia|]. intros [|a] Ha; cbn [get nth_error].
    + exists v. rewrite Nat.add_0_r. auto.
    + destruct (X a) as (u & Hu & Pu); [lia|]. exists u. split; auto. replace (s + S a) with (S s + a) by lia. auto.
Qed.

Lemma next_greater_at l b n y : (forall i a, i < n -> get l i = Some a -> a <= b) ->
  get l n = Some y -> b < y -> next_greater l b = Some n.
Proof.
  intros H Hn Hy. unfold next_greater. rewrite (indices_spec _ l 0).
  pose proof (get_Some_lt _ _ _ Hn) as Ln.
  replace (length l) with (n + S (length l - n - 1)) by lia. rewrite seq_app, filter_app. cbn [seq filter plus].
  assert (E : filter (fun i => b <? nth i l 0) (seq 0 n) = []).
  { destruct (filter (fun i => b <? nth i l 0) (seq 0 n)) as [|x r] eqn:Ef; auto. exfalso.
    assert (I : In x (filter (fun i => b <? nth i l 0) (seq 0 n))) by (rewrite Ef; left; auto).
    apply filter_In in I as [I1 I2]. apply in_seq in I1. apply Nat.ltb_lt in I2.
    assert (nth x l 0 <= b) by (apply (H x); [lia|apply get_nth; lia]). lia. }
  rewrite E. cbn [app]. rewrite (nth_error_nth l n 0 Hn). replace (b <? y) with true by (symmetry; apply Nat.ltb_lt; auto).
  reflexivity.
Qed.

Section Department.
Variables (T cap : nat) (ws : list nat) (ms : list Qc).
Hypothesis HW : length ws = T.
Hypothesis HM : length ms = T.
Let nz := part T ws.
Hypothesis Hcap : forall t, t < T -> nth t ws 0 <= cap.
Hypothesis Hne : part T ws <> [].

Lemma non_zero_part : non_zero ws = nz.
Proof. unfold non_zero. rewrite (indices_spec _ ws 0), HW. reflexivity. Qed.

Lemma py_fwd_row_ok l t init : t < T -> (t = 0 -> l = []) -> Ftab cap ws ms l init ->
  exists row, py_fwd_row cap t (nth t ws 0) (Fin (nth t ms 0%Qc)) init = Some row /\
    Ftab cap ws ms (l ++ [t]) row.
Proof.
  intros Ht Hl [Li HF]. unfold py_fwd_row.
  match goal with |- context [mapM ?f _] =>
    destruct (mapM_seq_ex f (fun a v => cmin (fun x => weight (Wl ws (l ++ [t])) x = a) (Ml ms (l ++ [t])) v) (cap + 1))
      as (row & E & L & H) end.
  2:{ exists row. split; [exact E|]. split; auto. intros a Ha. apply H. lia. }
  intros a Ha. destruct (HF a) as (x & Hx & Cx); [lia|].
  assert (A0 : forall x, length x = length l -> (weight (Wl ws (l ++ [t])) (x ++ [false]) = a <-> weight (Wl ws l) x = a)).
  { intros y L. unfold Wl. rewrite map_app, weight_app by (rewrite map_length; auto). cbn. lia. }
  assert (A1 : forall x, length x = length l ->
     (weight (Wl ws (l ++ [t])) (x ++ [true]) = a <-> (weight (Wl ws l) x + nth t ws 0 = a))).
  { intros y L. unfold Wl. rewrite map_app, weight_app by (rewrite map_length; auto). cbn. lia. }
  assert (NX : notnan x) by (eapply cmin_notnan; eauto).
  assert (SKIP : (forall z, length z = length l -> weight (Wl ws l) z + nth t ws 0 <> a) ->
    cmin (fun x => weight (Wl ws (l ++ [t])) x = a) (Ml ms (l ++ [t])) x).
  { intros Hz. replace x with (nmin x (nadd PInf (Fin (nth t ms 0%Qc)))).
    2:{ cbn. apply nmin_PInf_r. auto. }
    apply (cmin_last T ws ms HW HM _ (fun x => weight (Wl ws l) x = a) (fun x => weight (Wl ws l) x + nth t ws 0 = a)) with (2 := A1) (1 := A0); auto.
    apply cmin_impossible. intros z Lz. apply Hz. unfold Ml in Lz. rewrite map_length in Lz. auto. }
  assert (TAKE : nth t ws 0 <= a -> exists y, get init (a - nth t ws 0) = Some y /\
    cmin (fun x => weight (Wl ws (l ++ [t])) x = a) (Ml ms (l ++ [t])) (nmin (nadd y (Fin (nth t ms 0%Qc))) x)).
  { intros Hle. destruct (HF (a - nth t ws 0)) as (y & Hy & Cy); [lia|]. exists y. split; auto.
    rewrite nmin_comm; auto. 2:{ apply notnan_nadd_Fin. eapply cmin_notnan; eauto. }
    apply (cmin_last T ws ms HW HM _ (fun x => weight (Wl ws l) x = a) (fun x => weight (Wl ws l) x + nth t ws 0 = a)) with (2 := A1) (1 := A0); auto.
    eapply cmin_ext; [|exact Cy]. intros; cbn; lia. }
  destruct (Nat.leb_spec (nth t ws 0) a) as [Hle|Hgt]; cbn [andb].
  2:{ exists x. split; auto. apply SKIP. lia. }
  destruct (TAKE Hle) as (y & Hy & Cy).
  destruct (Nat.eqb_spec t 0) as [Ht0|Ht0]; cbn [andb negb].
  - destruct (Nat.eqb_spec a (nth t ws 0)) as [Ea|Ea]; cbn [negb].
    + rewrite Hy, Hx. cbn [bind]. eexists; split; [reflexivity|]. auto.
    + exists x. split; auto. apply SKIP. rewrite (Hl Ht0). cbn. lia.
  - rewrite Hy, Hx. cbn [bind]. eexists; split; [reflexivity|]. auto.
Qed.

Lemma py_bwd_row_ok l t init : t < T -> Btab cap ws ms l init ->
  exists row, py_bwd_row cap t (nth t ws 0) (Fin (nth t ms 0%Qc)) init = Some row /\
    length row = cap + 1 /\ (0 < t -> Btab cap ws ms (t :: l) row).
Proof.
  intros Ht [Li HF]. unfold py_bwd_row.
  match goal with |- context [mapM ?f _] =>
    destruct (mapM_seq_ex f (fun a v => 0 < t -> cmin (fun x => a + weight (Wl ws (t :: l)) x <= cap) (Ml ms (t :: l)) v) (cap + 1))
      as (row & E & L & H) end.
  2:{ exists row. split; [exact E|]. split; auto. intros H0. split; auto. intros a Ha.
      destruct (H a) as (v & Hv & Cv); [lia|]. eauto. }
  intros a Ha. destruct (HF a) as (x & Hx & Cx); [lia|].
  destruct (Nat.ltb_spec 0 t) as [H0|H0]; cbn [andb].
  - replace ((a =? 0) && (t =? 0)) with false
      by (destruct (Nat.eqb_spec t 0); [lia|rewrite andb_false_r; auto]).
    rewrite orb_false_r.
    destruct (Nat.leb_spec (a + nth t ws 0) cap) as [Hle|Hgt].
    + destruct (HF (a + nth t ws 0)) as (y & Hy & Cy); [lia|]. rewrite Hx, Hy; cbn [bind].
      eexists; split; [reflexivity|]. intros _. cbn [Ml map]. apply cmin_cons.
      * eapply cmin_ext; [|exact Cy]. intros z _. unfold Wl; cbn [map weight]. lia.
      * eapply cmin_ext; [|exact Cx]. intros z _. unfold Wl; cbn [map weight]. lia.
    + exists x. split; auto. intros _.
      replace x with (nmin x (nadd PInf (Fin (nth t ms 0%Qc)))).
      2:{ cbn. apply nmin_PInf_r. eapply cmin_notnan; eauto. }
      cbn [Ml map]. apply cmin_cons.
      * apply cmin_impossible. intros z _. unfold Wl; cbn [map weight]. lia.
      * eapply cmin_ext; [|exact Cx]. intros z _. unfold Wl; cbn [map weight]. lia.
  - cbn [orb]. destruct ((a =? 0) && (t =? 0)) eqn:Eb.
    + apply andb_prop in Eb as [Ea _]. apply Nat.eqb_eq in Ea. subst a.
      destruct (HF (0 + nth t ws 0)) as (y & Hy & Cy); [apply Hcap; auto|]. rewrite Hx, Hy; cbn [bind].
      eexists; split; [reflexivity|]. lia.
    + exists x. split; auto. lia.
Qed.

Lemma get_app_l {A} (l r : list A) i : i < length l -> get (l ++ r) i = get l i.
Proof. intros. apply nth_error_app1; auto. Qed.
Lemma get_app_rep {A} (l : list A) (x : A) n i : length l <= i < length l + n -> get (l ++ repeat x n) i = Some x.
Proof. intros H. unfold get. rewrite nth_error_app2 by lia. apply nth_error_repeat. lia. Qed.

Lemma part_split done t rest : nz = done ++ t :: rest ->
  get nz (length done) = Some t /\ firstn (length done) nz = done /\ skipn (length done + 1) nz = rest /\
  (forall x, In x done -> x < t) /\ (forall x, In x rest -> t < x) /\ t < T.
Proof.
  intros E. assert (G : get nz (length done) = Some t).
  { rewrite E. unfold get. rewrite nth_error_app2, Nat.sub_diag by lia. reflexivity. }
  split; auto. split; [|split; [|split; [|split]]].
  - rewrite E, firstn_app, Nat.sub_diag, firstn_all. cbn. apply app_nil_r.
  - rewrite E. replace (length done + 1) with (length (done ++ [t])) by (rewrite app_length; cbn; lia).
    replace (done ++ t :: rest) with ((done ++ [t]) ++ rest) by (rewrite <- app_assoc; auto).
    rewrite skipn_app, skipn_all, Nat.sub_diag. reflexivity.
  - intros x Hx. apply In_nth_error in Hx as [i Hi]. pose proof (get_Some_lt _ _ _ Hi).
    apply (nz_incr T ws i (length done)); auto. fold nz. rewrite E. rewrite get_app_l; auto.
  - intros x Hx. apply In_nth_error in Hx as [i Hi].
    apply (nz_incr T ws (length done) (length done + 1 + i)); auto; [lia|]. fold nz. rewrite E. unfold get.
    rewrite nth_error_app2 by lia. replace (length done + 1 + i - length done) with (S i) by lia. auto.
  - apply (nz_get T ws ms HW HM _ _ G).
Qed.

Lemma full_next done t t' rest : length nz = T -> nz = done ++ t :: t' :: rest -> t' = t + 1.
Proof.
  intros HL E. destruct (part_split done t (t' :: rest) E) as (G & _).
  assert (E2 : nz = (done ++ [t]) ++ t' :: rest) by (rewrite <- app_assoc; auto).
  destruct (part_split _ _ _ E2) as (G2 & _).
  rewrite (nz_full T ws ms HW HM _ _ HL G), (nz_full T ws ms HW HM _ _ HL G2), app_length. reflexivity.
Qed.

(** rows up to the next participant are known *)
Definition fwd_known (done : list nat) (full : list (list num)) : Prop :=
  forall p t, p <= length done -> get nz p = Some t ->
    exists row, get full t = Some row /\ Ftab cap ws ms (firstn p nz) row.

Lemma py_forward_ok : exists fv, py_forward cap (map Fin ms) ws = Some fv /\
  forall p t, get nz p = Some t -> exists row, get fv t = Some row /\ Ftab cap ws ms (firstn p nz) row.
Proof.
  unfold py_forward. rewrite non_zero_part, map_length, HM. set (init0 := n0 :: repeat PInf cap).
  destruct (nz_nonempty T ws Hne) as (z0 & Hz0). fold nz in Hz0. rewrite Hz0; cbn [bind].
  set (pre := if z0 =? 0 then [] else repeat init0 z0).
  assert (Epre : pre = repeat init0 z0).
  { unfold pre. destruct (Nat.eqb_spec z0 0) as [->|]; auto. }
  match goal with |- context [foldM ?bd nz ?st0] =>
    destruct (foldM_ind bd (fun done st => Ftab cap ws ms done (fst st) /\
      (forall t rest, nz = done ++ t :: rest -> length (snd st) = t) /\
      fwd_known done (init0 :: snd st)) nz st0) as ([init stage] & E & _ & _ & K) end.
  - cbn [fst snd]. split; [apply (Ftab_init T); auto|]. split.
    + intros t rest E. rewrite E in Hz0. injection Hz0 as ->. rewrite Epre, repeat_length. auto.
    + intros p t Hp Ht. cbn in Hp. replace p with 0 in * by lia. assert (t = z0) by congruence. subst t.
      exists init0. split; [|apply (Ftab_init T); auto]. rewrite Epre. change (init0 :: repeat init0 z0) with (repeat init0 (S z0)).
      apply nth_error_repeat. lia.
  - intros done t rest [init stage] E0 (HI & HL & HK). cbn [fst snd] in *.
    destruct (part_split done t rest E0) as (G & F & _ & LO & HIr & Lt).
    specialize (HL t rest E0).
    rewrite (get_ws T ws ms HW HM), (get_ms T ws ms HW HM) by auto. cbn [bind].
    destruct (py_fwd_row_ok done t init) as (row & Er & Fr); auto.
    { intros ->. destruct done as [|x d]; auto. specialize (LO x (or_introl eq_refl)). lia. }
    rewrite Er; cbn [bind].
    assert (Hlast : exists last, py_last nz = Some last /\ In last nz /\
       (rest = [] -> last = t) /\ (rest <> [] -> In last rest)).
    { unfold py_last. rewrite E0, app_length. cbn [length]. rewrite Nat.add_succ_r.
      destruct rest as [|r0 rest] using rev_ind.
      - exists t. cbn [length]. unfold get. rewrite nth_error_app2 by lia.
        replace (length done + 0 - length done) with 0 by lia. split; auto. split; [apply in_or_app; cbn; auto|].
        split; auto. congruence.
      - exists r0. rewrite app_length. cbn [length]. unfold get. rewrite nth_error_app2 by lia.
        replace (length done + (length rest + 1) - length done) with (S (length rest)) by lia. cbn [nth_error].
        rewrite nth_error_app2, Nat.sub_diag by lia. split; auto.
        split; [apply in_or_app; right; right; apply in_or_app; cbn; auto|].
        split; [intros X; apply app_eq_nil in X; destruct X; discriminate|]. intros _. apply in_or_app; cbn; auto. }
    destruct Hlast as (last & El & Il & L1 & L2). rewrite El; cbn [bind].
    (* enough to append the right number of copies *)
    assert (STEP : forall n, (forall t' rest', rest = t' :: rest' -> t + 1 + n = t') ->
      Ftab cap ws ms (done ++ [t]) row /\
      (forall t' rest', nz = (done ++ [t]) ++ t' :: rest' -> length ((stage ++ [row]) ++ repeat row n) = t') /\
      fwd_known (done ++ [t]) (init0 :: (stage ++ [row]) ++ repeat row n)).
    { intros n Hn. split; auto. 
      assert (EA : forall A (s : list A) r k, (s ++ [r]) ++ repeat r k = s ++ repeat r (S k)).
      { intros. rewrite <- app_assoc. reflexivity. }
      split.
      - intros t' rest' E'. rewrite <- app_assoc in E'. rewrite E0 in E'. apply app_inv_head in E'. cbn in E'.
        injection E' as E'. rewrite EA, app_length, repeat_length. rewrite <- (Hn t' rest' E'). lia.
      - intros p t' Hp Ht'. rewrite app_length in Hp. cbn in Hp. rewrite EA.
        change (init0 :: stage ++ repeat row (S n)) with ((init0 :: stage) ++ repeat row (S n)).
        destruct (Nat.eq_dec p (length done + 1)) as [->|Hne'].
        + exists row. assert (Er' : exists rest', rest = t' :: rest').
          { destruct (part_split done t rest E0) as (_ & _ & SK & _).
            rewrite (skipn_succ _ _ _ Ht') in SK. eauto. }
          destruct Er' as (rest' & Er'). split.
          * specialize (Hn _ _ Er'). apply get_app_rep. cbn [length]. lia.
          * rewrite (firstn_succ nz (length done) t) by auto. rewrite F. auto.
        + destruct (HK p t') as (r & Hr & Fr'); auto; [lia|]. exists r. split; auto.
          rewrite get_app_l; auto. eapply get_Some_lt; eauto. }
    assert (NEXT : forall t' rest', rest = t' :: rest' -> t < t' /\ In t' nz /\
      (forall x, In x nz -> t < x -> t' <= x)).
    { intros t' rest' ->. assert (E2 : nz = (done ++ [t]) ++ t' :: rest') by (rewrite <- app_assoc; auto).
      destruct (part_split _ _ _ E2) as (_ & _ & _ & LO2 & HI2 & _).
      split; [apply HIr; left; auto|]. split; [rewrite E0; apply in_or_app; cbn; auto|].
      intros x Hx Htx. rewrite E2 in Hx. apply in_app_or in Hx as [Hx|[Hx|Hx]].
      - apply in_app_or in Hx as [Hx|[Hx|[]]]; [specialize (LO x Hx); lia|lia].
      - lia.
      - specialize (HI2 x Hx). lia. }
    assert (DONE0 : (forall t' rest', rest = t' :: rest' -> t' = t + 1) ->
      exists s', Some (row, stage ++ [row]) = Some s' /\ Ftab cap ws ms (done ++ [t]) (fst s') /\
      (forall t' rest', nz = (done ++ [t]) ++ t' :: rest' -> length (snd s') = t') /\
      fwd_known (done ++ [t]) (init0 :: snd s')).
    { intros H. eexists; split; [reflexivity|]. cbn [fst snd]. destruct (STEP 0) as (X & Y & Z).
      - intros t' rest' Hr. rewrite (H t' rest' Hr). lia.
      - cbn [repeat] in Y, Z. rewrite app_nil_r in Y, Z. auto. }
    destruct (Nat.eqb_spec (length nz) T) as [Hfull|Hnf].
    { cbn [bind]. apply DONE0. intros t' rest' ->. eapply full_next; eauto. }
    destruct (py_in (t + 1) nz) eqn:Ein.
    { cbn [bind]. apply DONE0. intros t' rest' Hr. apply existsb_eqb_In in Ein.
      destruct (NEXT _ _ Hr) as (N1 & N2 & N3). specialize (N3 (t + 1) Ein ltac:(lia)). lia. }
    assert (Hnot : ~ In (t + 1) nz).
    { intros X. apply existsb_eqb_In in X. unfold py_in in Ein. congruence. }
    destruct ((last <=? t + 1) && (t + 1 <? T)) eqn:Ec.
    { cbn [bind]. apply andb_prop in Ec as [C1 C2]. apply Nat.leb_le in C1.
      assert (rest = []).
      { destruct rest as [|t' rest']; auto. exfalso. specialize (L2 ltac:(discriminate)).
        assert (t < last) by auto. assert (last = t + 1) by lia. subst last. auto. }
      eexists; split; [reflexivity|]. cbn [fst snd]. apply STEP. intros t' rest' X. congruence. }
    destruct (Nat.ltb_spec (t + 1) last) as [Hl|Hl].
    { assert (rest <> []) by (intros X; specialize (L1 X); lia).
      destruct rest as [|t' rest']; [congruence|].
      assert (E2 : nz = (done ++ [t]) ++ t' :: rest') by (rewrite <- app_assoc; auto).
      destruct (part_split _ _ _ E2) as (G2 & _). rewrite app_length in G2. cbn [length] in G2.
      destruct (NEXT _ _ eq_refl) as (N1 & N2 & _).
      rewrite (next_greater_at nz t (length done + 1) t'); auto.
      2:{ intros i a Hi Ha. destruct (Nat.eq_dec i (length done)) as [->|]; [assert (a = t) by congruence; lia|].
          assert (a < t) by (apply (nz_incr T ws i (length done)); auto; lia). lia. }
      cbn [bind]. rewrite G2; cbn [bind]. eexists; split; [reflexivity|]. cbn [fst snd]. apply STEP.
      intros t'' rest'' X. injection X as <- <-. assert (t' <> t + 1) by (intros ->; auto). lia. }
    { cbn [bind]. apply DONE0. intros t' rest' Hr. exfalso. assert (rest <> []) by congruence.
      specialize (L2 H). assert (t < last) by auto. assert (last = t + 1) by lia. subst last. auto. }
  - rewrite E. cbn [bind]. exists (init0 :: stage). split; auto. intros p t Ht. apply K; auto.
    apply get_Some_lt in Ht. lia.
Qed.

Definition bwd_known (done : list nat) (full : list (list num)) : Prop :=
  forall p t, length nz <= p + 1 + length done -> get nz p = Some t ->
    exists row, get full (T - (t + 1)) = Some row /\ Btab cap ws ms (skipn (p + 1) nz) row.

Lemma py_backward_ok : exists bv, py_backward cap (map Fin ms) ws = Some bv /\
  forall p t, get nz p = Some t -> exists row, get bv (t + 1) = Some row /\ Btab cap ws ms (skipn (p + 1) nz) row.
Proof.
  unfold py_backward. rewrite non_zero_part, map_length, HM. set (init0 := repeat n0 (cap + 1)).
  destruct (nz_nonempty T ws Hne) as (z0 & Hz0). fold nz in Hz0.
  assert (Hz : exists zl nz', rev nz = zl :: nz').
  { destruct (rev nz) eqn:X; eauto. apply (f_equal (@rev _)) in X. rewrite rev_involutive in X. rewrite X in Hz0. discriminate. }
  destruct Hz as (zl & nz' & Ez). 
  assert (ENZ : forall done t rest, rev nz = done ++ t :: rest -> nz = rev rest ++ t :: rev done).
  { intros done t rest X. apply (f_equal (@rev _)) in X. rewrite rev_involutive, rev_app_distr in X. cbn in X.
    rewrite <- app_assoc in X. auto. }
  assert (Lzl : zl < T) by (apply (part_split _ _ _ (ENZ [] zl nz' Ez))).
  replace (get (rev nz) 0) with (Some zl) by (rewrite Ez; auto). cbn [bind].
  set (pre := if zl + 1 =? T then [] else repeat init0 (T - 1 - zl)).
  assert (Epre : pre = repeat init0 (T - 1 - zl)).
  { unfold pre. destruct (Nat.eqb_spec (zl + 1) T) as [<-|]; auto. replace (zl + 1 - 1 - zl) with 0 by lia. auto. }
  assert (Lz0 : py_last (rev nz) = Some z0).
  { unfold py_last. rewrite rev_length. destruct nz as [|a l]; [discriminate|]. injection Hz0 as ->. cbn [length rev].
    unfold get. rewrite nth_error_app2 by (rewrite rev_length; auto). rewrite rev_length, Nat.sub_diag. auto. }
  match goal with |- context [foldM ?bd (rev nz) ?st0] =>
    destruct (foldM_ind bd (fun done st => 
      (done <> rev nz -> Btab cap ws ms (rev done) (fst st)) /\
      (forall t rest, rev nz = done ++ t :: rest -> length (snd st) = T - (t + 1)) /\
      (done = rev nz -> length (snd st) = T) /\
      bwd_known done (init0 :: snd st)) (rev nz) st0) as ([init stage] & E & _ & _ & LF & K) end.
  - cbn [fst snd]. split; [intros _; apply (Btab_init T); auto|]. split; [|split].
    + intros t rest E. cbn in E. rewrite Ez in E. injection E as -> ->. rewrite Epre, repeat_length. lia.
    + intros X. rewrite Ez in X. discriminate.
    + intros p t Hp Ht. cbn in Hp. pose proof (get_Some_lt _ _ _ Ht) as Lp.
      destruct (part_split _ _ _ (ENZ [] zl nz' Ez)) as (G & _). rewrite rev_length in G.
      assert (Ln : length nz = S (length nz')) by (rewrite <- rev_length, Ez; auto).
      assert (p = length nz') by lia. subst p. assert (t = zl) by congruence. subst t.
      exists init0. rewrite skipn_all2 by lia. split; [|apply (Btab_init T); auto]. rewrite Epre.
      change (init0 :: repeat init0 (T - 1 - zl)) with (repeat init0 (S (T - 1 - zl))).
      apply nth_error_repeat. lia.
  - intros done t rest [init stage] E0 (HI & HL & _ & HK). cbn [fst snd] in *.
    pose proof (ENZ _ _ _ E0) as En.
    destruct (part_split _ _ _ En) as (G & _ & SK & LO & HIr & Lt). rewrite rev_length in G, SK.
    assert (HB : Btab cap ws ms (rev done) init).
    { apply HI. intros X. rewrite X in E0. apply (f_equal (@length _)) in E0. rewrite app_length in E0. cbn in E0. lia. }
    specialize (HL t rest E0).
    assert (LEN : length nz = length rest + 1 + length done).
    { rewrite En, app_length. cbn [length]. rewrite !rev_length. lia. }
    rewrite (get_ws T ws ms HW HM), (get_ms T ws ms HW HM) by auto. cbn [bind].
    destruct (py_bwd_row_ok (rev done) t init) as (row & Er & Lr & Fr); auto.
    rewrite Er; cbn [bind]. rewrite Lz0; cbn [bind].
    assert (PREV : forall t' rest', rest = t' :: rest' -> t' < t /\ In t' nz /\ get nz (length rest') = Some t' /\
        (forall x, In x nz -> x < t -> x <= t')).
    { intros t' rest' ->. assert (E2 : rev nz = (done ++ [t]) ++ t' :: rest') by (rewrite <- app_assoc; auto).
      pose proof (ENZ _ _ _ E2) as En2. destruct (part_split _ _ _ En2) as (G2 & _ & _ & LO2 & HI2 & _).
      rewrite rev_length in G2. rewrite rev_app_distr in En2, HI2. cbn in En2, HI2.
      split; [apply HI2; auto|]. split; [eapply nth_error_In; eauto|]. split; auto.
      intros x Hx Hxt. rewrite En2 in Hx. apply in_app_or in Hx as [Hx|[Hx|[Hx|Hx]]]; try lia.
      - specialize (LO2 x Hx). lia.
      - specialize (HIr x Hx). lia. }
    assert (Z0 : rest = [] -> z0 = t).
    { intros ->. rewrite En in Hz0. cbn in Hz0. congruence. }
    assert (STEP : forall n, (forall t' rest', rest = t' :: rest' -> n + t' + 1 = t) ->
      (rest = [] -> n = t) ->
      (done ++ [t] <> rev nz -> Btab cap ws ms (rev (done ++ [t])) row) /\
      (forall t' rest', rev nz = (done ++ [t]) ++ t' :: rest' ->
         length ((stage ++ [row]) ++ repeat row n) = T - (t' + 1)) /\
      (done ++ [t] = rev nz -> length ((stage ++ [row]) ++ repeat row n) = T) /\
      bwd_known (done ++ [t]) (init0 :: (stage ++ [row]) ++ repeat row n)).
    { intros n Hn Hn0.
      assert (EA : forall A (s : list A) r k, (s ++ [r]) ++ repeat r k = s ++ repeat r (S k)).
      { intros. rewrite <- app_assoc. reflexivity. }
      assert (ER : forall t' rest', rev nz = (done ++ [t]) ++ t' :: rest' -> rest = t' :: rest').
      { intros t' rest' E'. rewrite <- app_assoc in E'. rewrite E0 in E'. apply app_inv_head in E'. cbn in E'. congruence. }
      assert (HB' : rest <> [] -> Btab cap ws ms (t :: rev done) row).
      { intros X. apply Fr. destruct rest as [|t' rest']; [congruence|].
        destruct (PREV _ _ eq_refl) as (X1 & _). lia. }
      assert (RA : rev (done ++ [t]) = t :: rev done) by (rewrite rev_app_distr; reflexivity).
      rewrite EA, RA, app_length, repeat_length, HL. split; [|split; [|split]].
      - intros X. apply HB'. intros ->. apply X. rewrite E0. reflexivity.
      - intros t' rest' E'. specialize (Hn _ _ (ER _ _ E')). lia.
      - intros X. assert (rest = []).
        { rewrite E0 in X. apply (f_equal (@length _)) in X. rewrite !app_length in X. cbn in X.
          destruct rest; auto. cbn in X. lia. }
        specialize (Hn0 H). lia.
      - intros p t' Hp Ht'. rewrite app_length in Hp. cbn [length] in Hp.
        change (init0 :: stage ++ repeat row (S n)) with ((init0 :: stage) ++ repeat row (S n)).
        destruct (Nat.eq_dec (p + 1) (length rest)) as [Hq|Hq].
        + destruct rest as [|t'' rest']; [cbn in Hq; lia|]. cbn [length] in Hq.
          destruct (PREV _ _ eq_refl) as (P1 & _ & P3 & _). assert (p = length rest') by lia. subst p.
          assert (t'' = t') by congruence. subst t''. exists row. specialize (Hn _ _ eq_refl). split.
          * apply get_app_rep. cbn [length]. rewrite HL. lia.
          * replace (length rest' + 1) with (length (t' :: rest')) by (cbn; lia).
            rewrite (skipn_succ _ _ _ G), SK. apply HB'. discriminate.
        + destruct (HK p t') as (r & Hr & Fr'); auto; [lia|]. exists r. split; auto.
          rewrite get_app_l; auto. eapply get_Some_lt; eauto. }
    assert (DONE0 : (forall t' rest', rest = t' :: rest' -> t' + 1 = t) -> (rest = [] -> 0 = t) ->
      exists s', Some (row, stage ++ [row]) = Some s' /\
      (done ++ [t] <> rev nz -> Btab cap ws ms (rev (done ++ [t])) (fst s')) /\
      (forall t' rest', rev nz = (done ++ [t]) ++ t' :: rest' -> length (snd s') = T - (t' + 1)) /\
      (done ++ [t] = rev nz -> length (snd s') = T) /\
      bwd_known (done ++ [t]) (init0 :: snd s')).
    { intros H1 H2. eexists; split; [reflexivity|]. cbn [fst snd].
      destruct (STEP 0) as (X & Y & Z & W); auto.
      cbn [repeat] in Y, Z, W. rewrite app_nil_r in Y, Z, W. auto. }
    destruct (Nat.eqb_spec (length nz) T) as [Hfull|Hnf].
    { cbn [bind]. pose proof (nz_full T ws ms HW HM _ _ Hfull G) as Et. apply DONE0.
      - intros t' rest' Hr. destruct (PREV _ _ Hr) as (_ & _ & P3 & _).
        rewrite (nz_full T ws ms HW HM _ _ Hfull P3). rewrite Hr in Et. cbn in Et. lia.
      - intros ->. cbn in Et. auto. }
    destruct t as [|t1].
    { cbn [bind]. apply DONE0; auto. intros t' rest' Hr. destruct (PREV _ _ Hr). lia. }
    destruct (py_in t1 nz) eqn:Ein.
    { cbn [bind]. apply existsb_eqb_In in Ein. apply DONE0.
      - intros t' rest' Hr. destruct (PREV _ _ Hr) as (P1 & _ & _ & P4). specialize (P4 t1 Ein ltac:(lia)). lia.
      - intros ->. exfalso. rewrite En in Ein. cbn in Ein. destruct Ein as [X|X]; [lia|]. specialize (HIr _ X). lia. }
    assert (Hnot : ~ In t1 nz).
    { intros X. apply existsb_eqb_In in X. unfold py_in in Ein. congruence. }
    assert (Iz0 : In z0 nz) by (eapply nth_error_In; eauto).
    assert (Mz0 : forall x, In x nz -> z0 <= x).
    { intros x Hx. apply In_nth_error in Hx as [[|i] Hi].
      - unfold get in Hz0. assert (x = z0) by congruence. lia.
      - assert (z0 < x) by (apply (nz_incr T ws 0 (S i)); auto; lia). lia. }
    destruct (Nat.leb_spec t1 z0) as [Hz|Hz].
    { cbn [bind]. eexists; split; [reflexivity|]. cbn [fst snd]. apply STEP.
      - intros t' rest' Hr. exfalso. destruct (PREV _ _ Hr) as (P1 & P2 & _). pose proof (Mz0 _ P2).
        assert (t' = t1) by lia. subst. auto.
      - auto. }
    { destruct rest as [|t' rest']; [specialize (Z0 eq_refl); lia|].
      destruct (PREV _ _ eq_refl) as (P1 & P2 & P3 & P4). cbn [length] in G.
      rewrite (next_greater_at nz t1 (S (length rest')) (S t1)); auto.
      2:{ intros i a Hi Ha. destruct (Nat.eq_dec i (length rest')) as [->|]; [assert (a = t') by congruence; lia|].
          assert (a < t') by (apply (nz_incr T ws i (length rest')); auto; lia). lia. }
      cbn [bind]. rewrite P3. cbn [bind]. eexists; split; [reflexivity|]. cbn [fst snd]. apply STEP.
      - intros t'' rest'' X. injection X as <- <-. lia.
      - discriminate. }
  - rewrite E. cbn [bind]. exists (rev stage ++ [init0]). split; auto. cbn [fst snd] in *. specialize (LF eq_refl).
    intros p t Ht. destruct (nz_get T ws ms HW HM _ _ Ht) as [Lt _].
    destruct (K p t) as (row & Hr & Br); auto.
    { rewrite rev_length. lia. }
    exists row. split; auto. change (rev stage ++ [init0]) with (rev (init0 :: stage)).
    unfold get in *. rewrite nth_error_nth' with (d := []) by (rewrite rev_length; cbn; lia).
    rewrite rev_nth by (cbn; lia). cbn [length]. rewrite LF.
    replace (S T - S (t + 1)) with (T - (t + 1)) by lia.
    rewrite (nth_error_nth _ _ _ Hr). reflexivity.
Qed.

Lemma py_department_ok : exists out, py_department T cap (map Fin ms) ws = Some out /\ length out = T /\
    (forall p t, get nz p = Some t -> exists q, get out t = Some (Fin q) /\
       minsum_message (within (Wl ws nz) cap) (Ml ms nz) p (Fin q)) /\
    (forall t, t < T -> ~ In t nz -> get out t = Some n0).
Proof.
  destruct py_forward_ok as (fv & EF & HF). destruct py_backward_ok as (bv & EB & HB).
  unfold py_department. rewrite EF, EB; cbn [bind]. rewrite non_zero_part.
  match goal with |- context [foldM ?bd nz ?st0] =>
    destruct (foldM_ind bd (fun done o => length o = T /\
      (forall p t, p < length done -> get nz p = Some t -> exists q, get o t = Some (Fin q) /\
         minsum_message (within (Wl ws nz) cap) (Ml ms nz) p (Fin q)) /\
      (forall t, t < T -> ~ In t done -> get o t = Some n0)) nz st0) as (o & E & L & H1 & H2) end.
  - rewrite repeat_length. split; auto. split; [cbn; intros; lia|]. intros t Ht _. apply get_repeat; auto.
  - intros done t rest o E0 (L & H1 & H2).
    destruct (part_split _ _ _ E0) as (G & F & SK & LO & _ & Lt). set (p := length done) in *.
    rewrite (get_ws T ws ms HW HM), (get_ms T ws ms HW HM) by auto. cbn [bind].
    destruct (HF p t G) as (rf & Grf & Trf). destruct (HB p t G) as (rb & Grb & Trb).
    destruct (path_metrics_ok T cap ws ms HW HM Hcap (firstn p nz) (skipn (p + 1) nz) t fv bv rf rb)
      as (sl & ds & v1 & v0 & EP & ES & ED & C1 & C0); auto.
    { intros ->. rewrite F. destruct done as [|x d]; auto. specialize (LO x (or_introl eq_refl)). lia. }
    change (py_metrics cap t) with (path_metrics cap t). rewrite EP; cbn [bind].
    change (py_min sl) with (min_element sl). change (py_min ds) with (min_element ds).
    rewrite ES, ED; cbn [bind]. rewrite set_lt by lia.
    replace (firstn p nz ++ skipn (p + 1) nz) with (remove_at p nz) in C1, C0
      by (rewrite remove_at_split; do 2 f_equal; lia).
    destruct (fits_Fin _ _ _ _ _ _ (Hcap t ltac:(lia)) C1) as [q1 ->].
    destruct (fits_Fin _ _ _ _ _ _ (Nat.le_0_l cap) C0) as [q0 ->].
    assert (EV : nsub (nsub (nadd (Fin q1) (Fin (nth t ms 0%Qc))) (Fin q0)) (Fin (nth t ms 0%Qc)) = Fin (q1 - q0)%Qc).
    { cbn [nadd nsub nopp]. f_equal. qlra. }
    rewrite EV. eexists; split; [reflexivity|]. rewrite upd_length. split; auto. split.
    + intros p' t' Hp' Ht'. rewrite app_length in Hp'. cbn in Hp'. rewrite get_upd by lia.
      destruct (Nat.eq_dec p' p) as [->|Hn].
      * assert (t' = t) by congruence. subst t'. rewrite Nat.eqb_refl.
        eexists; split; [reflexivity|]. apply (within_message T cap ws ms p t (Fin q1) (Fin q0)); auto.
      * destruct (Nat.eqb_spec t t') as [<-|Hne']; [|apply H1; auto; lia].
        exfalso. apply Hn. eapply NoDup_get; [apply incr_NoDup, (nz_incr T ws)| |]; eauto.
    + intros t' Ht' Hni. rewrite get_upd by lia.
      destruct (Nat.eqb_spec t t') as [<-|Hne']; [exfalso; apply Hni; apply in_or_app; cbn; auto|].
      apply H2; auto. intros X. apply Hni. apply in_or_app; auto.
  - exists o. split; [exact E|]. split; auto. split; auto.
    intros p t Hp. apply H1; auto. eapply get_Some_lt; eauto.
Qed.

Lemma department_same out : length out = T ->
  exists R, py_department T cap (map Fin ms) ws = Some R /\
    department_update T cap nz (length nz) ws (map Fin ms) out = Some R /\ length R = T.
Proof.
  intros HO. destruct py_department_ok as (R & ER & LR & A & B).
  destruct (department_ok T cap ws ms HW HM Hcap Hne out HO) as (R' & ER' & LR' & A' & B').
  exists R. split; auto. split; auto. fold nz in ER'. rewrite ER'. f_equal. apply list_ext_get; [lia|].
  intros t Ht. rewrite LR' in Ht. destruct (in_dec Nat.eq_dec t nz) as [I|I].
  - apply In_nth_error in I as [p Hp]. destruct (A p t Hp) as (q & -> & Mq).
    destruct (A' p t Hp) as (q' & -> & Mq'). f_equal. eapply minsum_message_unique; eauto.
  - rewrite B, B' by auto. reflexivity.
Qed.
End Department.

(** ** Messages of the teams to the departments *)
Section Teams.
Variables (D T : nat) (W : list (list nat)) (reward oric : list Qc) (X : list (list Qc)).
Hypothesis HD : length W = D.
Hypothesis HWT : Forall (fun w => length w = T) W.
Hypothesis Hr : length reward = T.
Hypothesis Ho : length oric = T.
Hypothesis HX : shape D T X.
Let nzs := map (part T) W.
Let nzd (d : nat) : list nat := nth d nzs [].
Hypothesis Hne : Forall (fun w => part T w <> []) W.
Hypothesis Htwo : forall d1 d2 d3 l, d1 < D -> d2 < D -> d3 < D ->
  In l (nzd d1) -> In l (nzd d2) -> In l (nzd d3) -> d1 = d2 \/ d1 = d3 \/ d2 = d3.

Lemma nzd_ok d : d < D -> exists w, get W d = Some w /\ non_zero w = nzd d /\ nzd d <> [] /\
  (forall l, In l (nzd d) -> l < T) /\ NoDup (nzd d).
Proof.
  intros Hd. destruct (get_lt W d) as [w Hw]; [lia|]. exists w. split; auto.
  assert (Iw : In w W) by (eapply nth_error_In; eauto).
  assert (En : nzd d = part T w).
  { unfold nzd, nzs. apply nth_error_nth. apply map_nth_error. auto. }
  rewrite Forall_forall in HWT, Hne. rewrite En. split; [apply non_zero_part; auto|]. split; [auto|].
  split; [|apply incr_NoDup, nz_incr]. intros l Hl. unfold part in Hl. apply filter_In in Hl as [Hl _]. apply in_seq in Hl. lia.
Qed.

Lemma py_team_ok : exists out, py_team_to_department D T W (map Fin reward) (inj X) (map Fin oric) = Some out /\
  shape D T out /\
  (forall d l, d < D -> In l (nzd d) -> get2 out d l = Some (Fin (tk_val D nzs reward oric X d l))) /\
  (forall d l, d < D -> l < T -> ~ In l (nzd d) -> get2 out d l = Some n0).
Proof.
  unfold py_team_to_department.
  match goal with |- context [for_up 0 D ?st0 ?bd] =>
    destruct (for_up_ind 0 D st0 bd (fun i o => shape D T o /\
      (forall d l, d < i -> In l (nzd d) -> get2 o d l = Some (Fin (tk_val D nzs reward oric X d l))) /\
      (forall d l, d < D -> l < T -> (i <= d \/ ~ In l (nzd d)) -> get2 o d l = Some n0))) as (o & E & S & A & B) end.
  - lia.
  - split; [apply shape_repeat|]. split; [intros; lia|]. intros d l Hd Hl _. apply get2_repeat; auto.
  - intros d o Hd (S & A & B). destruct (nzd_ok d) as (w & Hw & Nw & Ne & Bw & NDw); [lia|].
    rewrite Hw; cbn [bind]. destruct (get_lt o d) as [row0 Hrow]; [destruct S; lia|]. rewrite Hrow; cbn [bind].
    assert (L0 : length row0 = T) by (eapply shape_row; eauto).
    assert (G0 : forall l, l < T -> get row0 l = Some n0).
    { intros l Hl. assert (X0 : get2 o d l = Some n0) by (apply B; auto; lia).
      unfold get2 in X0. rewrite Hrow in X0. exact X0. }
    rewrite Nw.
    set (pick := fun l done => filter (fun u => inb l (nzd u)) done).
    match goal with |- context [foldM ?bd (all_but D d) ?st0] =>
      destruct (foldM_ind bd (fun done st => length (fst st) = T /\
        (forall l, In l (snd st) <-> In l (nzd d) /\ pick l done <> []) /\
        (forall l, l < T -> (~ In l (nzd d) \/ pick l done = []) -> get (fst st) l = Some n0) /\
        (forall l, In l (nzd d) -> pick l done <> [] ->
           get (fst st) l = Some (Fin (tk_val D nzs reward oric X d l)))) (all_but D d) st0)
        as ([row total] & Ef & Lr & TI & R0 & R1) end.
    + cbn [fst snd]. split; auto. split; [intros l; cbn; tauto|]. split; auto. cbn. intros; congruence.
    + intros done u rest [row total] Eu (Lr & TI & R0 & R1). cbn [fst snd] in *.
      assert (Iu : In u (others d (seq 0 D))).
      { change (others d (seq 0 D)) with (all_but D d). rewrite Eu. apply in_or_app; cbn; auto. }
      apply In_others in Iu as [Iu Nud]. apply in_seq in Iu.
      destruct (nzd_ok u) as (wu & Hwu & Nwu & _ & Bwu & _); [lia|]. rewrite Hwu; cbn [bind]. rewrite Nwu.
      set (inter := py_intersect (nzd d) (nzd u)).
      assert (II : forall l, In l inter <-> In l (nzd d) /\ In l (nzd u)).
      { intros l. unfold inter, py_intersect. rewrite filter_In. unfold py_in. rewrite existsb_eqb_In. tauto. }
      assert (LI : forall l, In l inter -> l < T) by (intros l Hl; apply II in Hl; apply Bw; tauto).
      rewrite np_take_Fin by (rewrite Hr; auto). cbn [bind].
      replace (get (inj X) u) with (Some (map Fin (nth u X []))).
      2:{ symmetry. unfold inj, get. apply map_nth_error. apply get_nth. destruct HX; lia. }
      cbn [bind]. rewrite np_take_Fin by (rewrite (shape_nth D T X); auto; lia). cbn [bind].
      rewrite np_take_Fin by (rewrite Ho; auto). cbn [bind].
      rewrite np_add_Fin by (rewrite !map_length; auto). cbn [bind]. rewrite qplus_map.
      rewrite np_add_Fin by (rewrite !map_length; auto). cbn [bind]. rewrite qplus_map, map_map.
      match goal with |- context [np_put row inter (map ?f inter)] =>
        destruct (np_put_ok row inter f) as (row' & Ep & Lp & Gp) end.
      { rewrite Lr; auto. }
      rewrite Ep. cbn [bind]. eexists; split; [reflexivity|]. cbn [fst snd].
      assert (PA : forall l, pick l (done ++ [u]) = pick l done ++ (if inb l (nzd u) then [u] else [])).
      { intros l. unfold pick. rewrite filter_app. cbn [filter]. reflexivity. }
      assert (PN : forall l, pick l (done ++ [u]) <> [] <-> pick l done <> [] \/ In l (nzd u)).
      { intros l. rewrite PA. destruct (inb l (nzd u)) eqn:Ei.
        - apply inb_In in Ei. split; auto. intros _ Y. apply app_eq_nil in Y as [_ Y]. discriminate.
        - rewrite app_nil_r. assert (~ In l (nzd u)) by (rewrite <- inb_In; congruence). tauto. }
      assert (PZ : forall l, pick l (done ++ [u]) = [] <-> pick l done = [] /\ ~ In l (nzd u)).
      { intros l. specialize (PN l). destruct (pick l (done ++ [u])), (pick l done); intuition (try congruence; auto). }
      split; [lia|]. split; [|split].
      * intros l. rewrite in_app_iff, TI, II, PN. tauto.
      * intros l Hl Hc. rewrite Gp. destruct (existsb (Nat.eqb l) inter) eqn:Ee.
        -- apply existsb_eqb_In, II in Ee. rewrite PZ in Hc. tauto.
        -- apply R0; auto. rewrite PZ in Hc. tauto.
      * intros l Hl Hc. rewrite Gp. destruct (existsb (Nat.eqb l) inter) eqn:Ee.
        -- apply existsb_eqb_In, II in Ee. destruct Ee as [_ Iu'].
           assert (ES : shared D nzs d l = [u]).
           { apply (shared_one D T nzs reward oric); auto; try lia. unfold nzs. rewrite map_length; auto. }
           unfold tk_val. rewrite ES. cbn [map qsum fold_right]. unfold qat. f_equal. f_equal. ring.
        -- apply R1; auto. apply PN in Hc. destruct Hc; auto. exfalso.
           assert (In l inter) by (apply II; auto). apply existsb_eqb_In in H0. congruence.
    + change (list (list num)) with (list (list num)) in *. rewrite Ef. cbn [bind fst snd] in *.
      destruct (get_lt (nzd d) 0) as [z Hz].
      { destruct (nzd d); [congruence|cbn; lia]. }
      rewrite Hz; cbn [bind]. set (uniq := py_setdiff (nzd d) total).
      assert (UI : forall l, In l uniq <-> In l (nzd d) /\ pick l (all_but D d) = []).
      { intros l. unfold uniq, py_setdiff. rewrite filter_In, negb_true_iff. unfold py_in.
        rewrite <- not_true_iff_false, existsb_eqb_In, TI. destruct (pick l (all_but D d)); intuition (try congruence; auto). }
      assert (LU : forall l, In l uniq -> l < T) by (intros l Hl; apply UI in Hl; apply Bw; tauto).
      rewrite np_take_Fin by (rewrite Hr; auto). cbn [bind].
      rewrite np_take_Fin by (rewrite Ho; auto). cbn [bind].
      rewrite np_add_Fin by (rewrite !map_length; auto). cbn [bind]. rewrite qplus_map, map_map.
      match goal with |- context [np_put row uniq (map ?f uniq)] =>
        destruct (np_put_ok row uniq f) as (row' & Ep & Lp & Gp) end.
      { rewrite Lr; auto. }
      rewrite Ep. cbn [bind]. rewrite set_lt by (destruct S; lia). eexists; split; [reflexivity|].
      split; [apply shape_upd; auto; lia|].
      assert (G2 : forall d' l, get2 (upd o d row') d' l = if d =? d' then get row' l else get2 o d' l).
      { intros d' l. unfold get2. rewrite get_upd by (destruct S; lia). destruct (d =? d'); auto. }
      split.
      * intros d' l Hd' Hl. rewrite G2. destruct (Nat.eqb_spec d d') as [<-|Hn]; [|apply A; auto; lia].
        rewrite Gp. destruct (existsb (Nat.eqb l) uniq) eqn:Ee.
        -- apply existsb_eqb_In, UI in Ee as [_ Ee]. unfold tk_val.
           change (shared D nzs d l) with (pick l (all_but D d)). rewrite Ee. cbn. f_equal. f_equal. ring.
        -- apply R1; auto. intros Hp. assert (In l uniq) by (apply UI; auto). apply existsb_eqb_In in H. congruence.
      * intros d' l Hd' Hl Hc. rewrite G2. destruct (Nat.eqb_spec d d') as [<-|Hn].
        -- rewrite Gp. destruct Hc as [Hc|Hc]; [lia|]. destruct (existsb (Nat.eqb l) uniq) eqn:Ee; [|apply R0; auto].
           apply existsb_eqb_In, UI in Ee. tauto.
        -- apply B; auto. destruct Hc; auto. left; lia.
  - exists o. split; [exact E|]. split; auto.
Qed.

Lemma team_same : exists R,
  py_team_to_department D T W (map Fin reward) (inj X) (map Fin oric) = Some R /\
  team_to_knapsack D T nzs (np_zeros D T) (map Fin reward) (inj X) (map Fin oric) = Some R /\ shape D T R.
Proof.
  destruct py_team_ok as (R & ER & SR & A & B).
  destruct (team_to_knapsack_ok D T nzs reward oric X) with (t2k := np_zeros D T) as (R' & ER' & SR' & A' & B'); auto.
  { unfold nzs. rewrite map_length; auto. }
  { unfold nzs. apply Forall_map, Forall_forall. intros w _. split; [apply nz_incr|].
    apply Forall_forall. intros l Hl. unfold part in Hl. apply filter_In in Hl as [Hl _]. apply in_seq in Hl. lia. }
  { apply shape_repeat. }
  exists R. split; auto. split; auto. rewrite ER'. f_equal. apply (shape_ext D T); auto. intros d l Hd Hl.
  destruct (in_dec Nat.eq_dec l (nzd d)) as [I|I].
  - rewrite A, A' by auto. reflexivity.
  - rewrite B, B' by auto. apply get2_repeat; auto.
Qed.
End Teams.

(** ** Project constraints *)
Definition project_val (u : bool) (row : list Qc) (t : nat) : num :=
  py_constraint_rule u (nmins (map Fin (remove_at t row))).
Lemma py_project_row_ok u row : 2 <= length row ->
  py_project_row u (map Fin row) = Some (map (fun t => nopp (project_val u row t)) (seq 0 (length row))).
Proof.
  intros HT. unfold py_project_row. rewrite map_length. set (T := length row) in *.
  rewrite skipn_map, np_min_Fin by (intros X; apply (f_equal (@length _)) in X; rewrite skipn_length in X; cbn in X; fold T in X; lia).
  cbn [bind]. rewrite set_lt by (rewrite repeat_length; lia). cbn [bind].
  match goal with |- context [for_up 1 (T - 1) ?st0 ?bd] =>
    destruct (for_up_ind 1 (T - 1) st0 bd (fun i b => length b = T /\
      forall j, j < i -> get b j = Some (project_val u row j))) as (b & E & L & G) end.
  - lia.
  - rewrite upd_length, repeat_length. split; auto. intros j Hj. replace j with 0 by lia.
    rewrite get_upd_eq by (rewrite repeat_length; lia). unfold project_val. rewrite remove_at_split. reflexivity.
  - intros j b Hj (L & G). rewrite firstn_map, skipn_map.
    rewrite np_min_Fin by (intros X; apply (f_equal (@length _)) in X; rewrite firstn_length in X; cbn in X; fold T in X; lia).
    cbn [bind].
    rewrite np_min_Fin by (intros X; apply (f_equal (@length _)) in X; rewrite skipn_length in X; cbn in X; fold T in X; lia).
    cbn [bind]. rewrite set_lt by lia. eexists; split; [reflexivity|]. rewrite upd_length. split; auto.
    intros j' Hj'. rewrite get_upd by lia. destruct (Nat.eqb_spec j j') as [<-|Hn]; [|apply G; lia].
    f_equal. unfold project_val. f_equal. rewrite np_minimum_nmin by (apply nmins_notnan, Forall_Fin).
    rewrite remove_at_split, map_app, nmins_app by apply Forall_Fin. rewrite Nat.add_1_r. reflexivity.
  - rewrite E. cbn [bind]. rewrite firstn_map.
    rewrite np_min_Fin by (intros X; apply (f_equal (@length _)) in X; rewrite firstn_length in X; cbn in X; fold T in X; lia).
    cbn [bind]. rewrite set_lt by lia. cbn [bind]. f_equal. apply list_ext_get.
    + rewrite !map_length, upd_length, seq_length. auto.
    + intros j Hj. rewrite map_length, upd_length in Hj. unfold get in *.
      rewrite (map_nth_error _ j (seq 0 T) (d:=j)).
      2:{ rewrite (nth_error_nth' _ 0) by (rewrite seq_length; lia). rewrite seq_nth by lia. reflexivity. }
      apply map_nth_error. fold (get (upd b (T - 1) (py_constraint_rule u (nmins (map Fin (firstn (T - 1) row))))) j).
      rewrite get_upd by lia. destruct (Nat.eqb_spec (T - 1) j) as [<-|Hn].
      * f_equal. unfold project_val. f_equal. f_equal. f_equal. rewrite remove_at_split.
        rewrite (skipn_all2 row) by (fold T; lia). rewrite app_nil_r. reflexivity.
      * apply G. lia.
Qed.
Lemma py_project_ok u P T M : shape P T M -> 2 <= T ->
  exists out, py_project_update u (inj M) = Some out /\ shape P T out /\
    forall p t, p < P -> t < T -> get2 out p t = Some (nopp (project_val u (nth p M []) t)).
Proof.
  intros [L F] HT. unfold py_project_update.
  exists (map (fun r => map (fun t => nopp (project_val u r t)) (seq 0 T)) M). split; [|split].
  - unfold inj. clear L. induction F as [|r M Hr F IH]; cbn [map mapM]; auto.
    rewrite py_project_row_ok by lia. cbn [bind]. rewrite IH. cbn [bind]. rewrite Hr. reflexivity.
  - split; [rewrite map_length; auto|]. apply Forall_map, Forall_forall. intros. rewrite map_length, seq_length; auto.
  - intros p t Hp Ht. unfold get2, get. rewrite (map_nth_error _ p M (d:=nth p M [])) by (apply get_nth; lia).
    cbn [bind]. apply (map_nth_error (fun t => nopp (project_val u (nth p M []) t))).
    rewrite (nth_error_nth' _ 0) by (rewrite seq_length; lia). rewrite seq_nth by lia. reflexivity.
Qed.
Lemma project_same P T M out : shape P T M -> 2 <= T -> shape P T out ->
  exists R, py_project_update true (inj M) = Some R /\ project_update T (inj M) out = Some R /\ shape P T R.
Proof.
  intros HM HT HO. destruct (py_project_ok true P T M HM HT) as (R & ER & SR & GR).
  destruct (project_update_ok P T M out HM HO) as (R' & ER' & SR' & GR').
  exists R. split; auto. split; auto. rewrite ER'. f_equal. apply (shape_ext P T); auto.
  intros p t Hp Ht. rewrite GR, GR' by auto. unfold project_val, py_constraint_rule.
  rewrite np_minimum_nmin; auto; [apply nmins_notnan, Forall_Fin | unfold notnan; discriminate].
Qed.

(** ** Coupling constraints *)
Lemma remove_at_map_seq {B} (f : nat -> B) s n p : p < n ->
  remove_at p (map f (seq s n)) = map f (filter (fun j => negb (j =? s + p)) (seq s n)).
Proof.
  revert s p; induction n as [|n IH]; intros s [|p] H; try lia; cbn [seq map remove_at filter].
  - rewrite Nat.add_0_r, Nat.eqb_refl. cbn [negb]. f_equal.
    rewrite (filter_ext_in_bool _ (fun _ => true)).
    + clear. induction (seq (S s) n); cbn; auto. f_equal; auto.
    + intros a Ha. apply in_seq in Ha. destruct (Nat.eqb_spec a s); auto; lia.
  - destruct (Nat.eqb_spec s (s + S p)); [lia|]. cbn [negb map]. f_equal. rewrite IH by lia.
    replace (S s + p) with (s + S p) by lia. reflexivity.
Qed.
Lemma remove_at_col M P t p : p < P -> remove_at p (col M P t) = map (fun q => qat M q t) (others p (seq 0 P)).
Proof. intros H. unfold col. apply (remove_at_map_seq (fun q => qat M q t) 0 P p H). Qed.

Lemma oric_value l x : l <> [] ->
  nopp (np_minimum (nmins (map Fin l)) (nopp (Fin x)))
  = nsub (Fin x) (nmin (nmins (map Fin (map (fun e => (e + x)%Qc) l))) n0).
Proof.
  intros Hl. rewrite np_minimum_nmin; [|apply nmins_notnan, Forall_Fin | cbn; discriminate].
  assert (E : map Fin (map (fun e => (e + x)%Qc) l) = map (fun v => nadd v (Fin x)) (map Fin l)).
  { rewrite !map_map. reflexivity. }
  rewrite E, nmins_shift_num by apply Forall_Fin.
  destruct (nmins_Fin l Hl) as (q & Hq & _). rewrite Hq. cbn [nopp nadd]. unfold n0, nmin. cbn [nlt].
  destruct (qltb_spec (- x) q), (qltb_spec 0 (q + x)); cbn; f_equal; try qlra; exfalso; qlra.
Qed.

Lemma py_activation_ok P T M team p : shape P T M -> length team = T -> 2 <= P -> p < P ->
  py_oric_activation P p (inj M) (map Fin team) = Some (map (oric_val M P team p) (seq 0 T)).
Proof.
  intros HM Ht HP Hp. unfold py_oric_activation. change (all_but P p) with (others p (seq 0 P)).
  assert (HO : forall i, In i (others p (seq 0 P)) -> i < P).
  { intros i Hi. apply In_others in Hi as [Hi _]. apply in_seq in Hi. lia. }
  rewrite (np_take_rows P T) by auto. cbn [bind]. rewrite map_length, Ht.
  assert (ON : others p (seq 0 P) <> []).
  { set (p1 := if p =? 0 then 1 else 0). assert (I1 : In p1 (others p (seq 0 P))).
    { apply In_others. unfold p1. destruct (Nat.eqb_spec p 0); split; try apply in_seq; lia. }
    intros X. rewrite X in I1. destruct I1. }
  apply mapM_Some. intros t Htt. apply in_seq in Htt.
  rewrite (column_inj (length (others p (seq 0 P))) T) by (try apply (rows_shape P T); auto; lia). cbn [bind].
  rewrite rows_col. rewrite np_min_Fin by (intros X; apply map_eq_nil in X; auto). cbn [bind].
  rewrite (get_mapFin team t T) by (auto; lia). cbn [bind]. f_equal. unfold oric_val.
  rewrite oric_value by (intros X; apply map_eq_nil in X; auto).
  rewrite <- remove_at_col by auto. rewrite remove_at_map. reflexivity.
Qed.

Lemma oric_fin M P team p t : 2 <= P -> p < P -> exists q, oric_val M P team p t = Fin q.
Proof.
  intros HP Hp. unfold oric_val.
  destruct (nmins_Fin (remove_at p (map (fun e => (e + nth t team 0)%Qc) (col M P t)))) as (q & -> & _).
  { intros X. apply (f_equal (@length _)) in X. rewrite remove_at_length in X; rewrite map_length, col_length in *; cbn in *; lia. }
  unfold n0, nmin. cbn [nlt]. destruct (qltb 0 q); cbn; eauto.
Qed.

Lemma oric_same P T M R team o1 o2 : shape P T M -> shape P T R -> length team = T -> 2 <= P ->
  shape P T o1 -> shape P T o2 ->
  exists A B, py_oric_to_project P T (inj M) (map Fin team) (inj R) = Some (A, B) /\
    oric_to_project_update P T (inj M) (map Fin team) o1 o2 (inj R) = Some (A, B) /\ shape P T A /\ shape P T B.
Proof.
  intros HM HR Ht HP H1 H2.
  destruct (oric_to_project_ok P T M team R o1 o2) as (A & B & E & SA & SB & G); auto.
  exists A, B. split; auto. unfold py_oric_to_project.
  match goal with |- context [for_up 0 P ?st0 ?bd] =>
    destruct (for_up_ind 0 P st0 bd (fun i o => shape P T o /\
      forall p, p < i -> get o p = Some (map (oric_val M P team p) (seq 0 T)))) as (o & Eo & So & Go) end.
  - lia.
  - split; [apply shape_repeat|]. intros; lia.
  - intros p o Hp (So & Go). rewrite (py_activation_ok P T) by (auto; lia). cbn [bind].
    rewrite map_length, seq_length, Nat.eqb_refl, set_lt by (destruct So; lia). eexists; split; [reflexivity|].
    split; [apply shape_upd; auto; rewrite map_length, seq_length; auto|]. intros p' Hp'.
    rewrite get_upd by (destruct So; lia). destruct (Nat.eqb_spec p p') as [<-|]; auto. apply Go; lia.
  - rewrite Eo. cbn [bind].
    pose (q := fun p t => match oric_val M P team p t with Fin q => q | _ => 0%Qc end).
    assert (Hq : forall p t, p < P -> oric_val M P team p t = Fin (q p t)).
    { intros p t Hp. unfold q. destruct (oric_fin M P team p t HP Hp) as (x & ->). reflexivity. }
    set (Qm := map (fun p => map (q p) (seq 0 T)) (seq 0 P)).
    assert (NS : forall i j, j < i -> nth_error (seq 0 i) j = Some j).
    { intros i j Hj. rewrite (nth_error_nth' _ 0) by (rewrite seq_length; auto). rewrite seq_nth by auto. reflexivity. }
    assert (GQ : forall p, p < P -> nth p Qm [] = map (q p) (seq 0 T)).
    { intros p Hp. unfold Qm. apply nth_error_nth. apply (map_nth_error (fun p => map (q p) (seq 0 T))). auto. }
    assert (SQ : shape P T Qm).
    { split; [unfold Qm; rewrite map_length, seq_length; auto|]. unfold Qm. apply Forall_map, Forall_forall.
      intros. rewrite map_length, seq_length; auto. }
    assert (o = inj Qm) as ->.
    { apply list_ext_get; [unfold inj; rewrite map_length; destruct So, SQ; lia|].
      intros p Hp. replace (length o) with P in Hp by (destruct So; auto). rewrite Go by auto.
      unfold inj, get. rewrite (map_nth_error _ p Qm (d:=nth p Qm [])) by (apply get_nth; destruct SQ; lia).
      rewrite GQ by auto. rewrite map_map. f_equal. apply map_ext. intros t. apply Hq; auto. }
    rewrite (np_add2_inj P T) by auto. cbn [bind].
    assert (QQ : forall p t, p < P -> t < T -> qat Qm p t = q p t).
    { intros p t Hp Htt. unfold qat. rewrite GQ by auto. apply nth_error_nth. apply map_nth_error. auto. }
    assert (inj Qm = A) as ->.
    { apply (shape_ext P T); auto using shape_inj. intros p t Hp Htt. rewrite (get2_inj P T) by auto.
      destruct (G p t Hp Htt) as [-> _]. rewrite Hq, QQ by auto. reflexivity. }
    assert (inj (qadd2 Qm R) = B) as ->.
    { apply (shape_ext P T); auto using shape_inj, qadd2_shape. intros p t Hp Htt.
      rewrite (get2_inj P T) by auto using qadd2_shape. rewrite (qadd2_at P T) by auto.
      destruct (G p t Hp Htt) as [_ ->]. rewrite Hq, QQ by auto. reflexivity. }
    reflexivity.
Qed.

Lemma py_oric_to_team_ok P T M : shape P T M -> P <> 0 ->
  py_oric_to_team (inj M) = Some (map (fun t => nmins (map Fin (col M P t))) (seq 0 T)).
Proof.
  intros HM HP. unfold py_oric_to_team. destruct M as [|r M]; [destruct HM; cbn in *; lia|].
  cbn [inj map get nth_error bind]. rewrite map_length.
  replace (length r) with T by (destruct HM as [_ F]; inversion F; auto).
  change (map Fin r :: map (map Fin) M) with (inj (r :: M)). apply mapM_Some. intros t Ht. apply in_seq in Ht.
  rewrite (column_inj P T) by (auto; lia). cbn [bind]. apply np_min_Fin.
  intros X. apply (f_equal (@length _)) in X. rewrite col_length in X. cbn in X. auto.
Qed.
Lemma oric_team_same P T M out : shape P T M -> P <> 0 -> length out = T ->
  (forall t, t < T -> exists p, p < P /\ (qat M p t <= zq 1000000)%Qc) ->
  exists R, py_oric_to_team (inj M) = Some R /\ oric_to_team_update (inj M) out = Some R.
Proof.
  intros HM HP HO Hc. destruct (oric_to_team_ok P T M out HM HO) as (R & ER & LR & GR).
  exists R. split; auto. rewrite (py_oric_to_team_ok P T) by auto. f_equal. apply list_ext_get.
  { rewrite map_length, seq_length; auto. }
  intros t Ht. rewrite map_length, seq_length in Ht. rewrite GR by auto. unfold get.
  rewrite (map_nth_error _ t (seq 0 T) (d:=t)).
  2:{ rewrite (nth_error_nth' _ 0) by (rewrite seq_length; auto). rewrite seq_nth by auto. reflexivity. }
  f_equal. destruct (Hc t Ht) as (p & Hp & Hle).
  assert (I : In (qat M p t) (col M P t)) by (unfold col; apply (in_map (fun p => qat M p t)); apply in_seq; lia).
  pose proof (nmins_is_min (col M P t)) as Mn.
  destruct (nmins (map Fin (col M P t))) as [q| | |] eqn:Eq; cbn in Mn; try tauto.
  - destruct Mn as [_ Mn]. specialize (Mn _ I). unfold oric_cap, zn, zq in *. unfold nmin. cbn [nlt].
    destruct (qltb_spec q (Q2Qc (inject_Z 1000000))); auto. f_equal. qlra.
  - exfalso. eapply Mn; eauto.
Qed.

(** ** Sums *)
Lemma team_to_oric_same D T X reward out : shape D T X -> D <> 0 -> length reward = T -> length out = T ->
  exists R, py_team_to_oric (inj X) (map Fin reward) = Some R /\
    team_to_oric_update T (inj X) out (map Fin reward) = Some R /\ length R = T.
Proof.
  intros HX HD Hr HO. destruct (team_to_oric_ok D T X reward out HX Hr HO) as (q & E & L & H).
  exists (map Fin q). split; [|split; [auto|rewrite map_length; auto]].
  unfold py_team_to_oric. rewrite (column_sums_ok D T) by auto. cbn [bind].
  rewrite np_add_Fin by (rewrite map_length, seq_length; auto). f_equal. f_equal.
  apply nth_ext with (d := 0%Qc) (d' := 0%Qc).
  { rewrite qplus_length, map_length, seq_length. lia. }
  intros e He. rewrite qplus_length, map_length, seq_length in He.
  rewrite nth_qplus by (rewrite map_length, seq_length; lia). rewrite H by lia. rewrite Qcplus_comm. f_equal.
  apply nth_error_nth. rewrite (map_nth_error _ e (seq 0 T) (d:=e)); auto.
  rewrite (nth_error_nth' _ 0) by (rewrite seq_length; lia). rewrite seq_nth by lia. reflexivity.
Qed.
Lemma extrinsic_team_same D T X o out : shape D T X -> D <> 0 -> length o = T -> length out = T ->
  exists R, py_extrinsic_team (inj X) (map Fin o) = Some R /\
    extrinsic_output_team (inj X) (map Fin o) out = Some R /\ length R = T.
Proof.
  intros HX HD Hr HO. destruct (extrinsic_output_team_ok D T X o out HX Hr HO) as (q & E & L & H).
  exists (map Fin q). split; [|split; [auto|rewrite map_length; auto]].
  unfold py_extrinsic_team. rewrite (column_sums_ok D T) by auto. cbn [bind].
  rewrite np_add_Fin by (rewrite map_length, seq_length; auto). f_equal. f_equal.
  apply nth_ext with (d := 0%Qc) (d' := 0%Qc).
  { rewrite qplus_length, map_length, seq_length. lia. }
  intros e He. rewrite qplus_length, map_length, seq_length in He.
  rewrite nth_qplus by (rewrite map_length, seq_length; lia). rewrite H by lia. rewrite Qcplus_comm. f_equal.
  apply nth_error_nth. rewrite (map_nth_error _ e (seq 0 T) (d:=e)); auto.
  rewrite (nth_error_nth' _ 0) by (rewrite seq_length; lia). rewrite seq_nth by lia. reflexivity.
Qed.
Lemma project_to_oric_same P T A R out : shape P T A -> shape P T R -> shape P T out ->
  exists Q, py_project_to_oric (inj A) (inj R) = Some Q /\ project_to_oric_update (inj A) out (inj R) = Some Q /\ shape P T Q.
Proof.
  intros HA HR HO. destruct (project_to_oric_ok P T A R out HA HR HO) as (Q & E & S & H).
  exists (inj Q). split; [|split; [auto|apply shape_inj; auto]]. unfold py_project_to_oric.
  rewrite (np_add2_inj P T) by auto. f_equal. f_equal. apply (qmat_ext P T); auto using qadd2_shape.
  intros p t Hp Ht. rewrite (qadd2_at P T), H by auto. reflexivity.
Qed.
Lemma concat_nth {A} P T (M : list (list A)) d p t : shape P T M -> p < P -> t < T ->
  nth (p * T + t) (concat M) d = nth t (nth p M []) d.
Proof.
  revert P p; induction M as [|r M IH]; intros P p [L F] Hp Ht; cbn in L; [lia|]. inversion F; subst.
  cbn [concat]. destruct p as [|p].
  - cbn [nth]. rewrite app_nth1 by lia. reflexivity.
  - rewrite app_nth2 by lia. cbn [nth]. replace (S p * length r + t - length r) with (p * length r + t) by lia.
    apply (IH (length M)); auto; try lia. split; auto.
Qed.
Lemma concat_len {A} P T (M : list (list A)) : shape P T M -> length (concat M) = P * T.
Proof.
  intros [<- F]. induction F as [|r M Hr F IH]; cbn; auto. rewrite app_length, IH, Hr. reflexivity.
Qed.
Lemma concat_inj (M : list (list Qc)) : concat (inj M) = map Fin (concat M).
Proof. unfold inj. symmetry. apply concat_map. Qed.
Lemma intrinsic_same P T A B R out : shape P T A -> shape P T B -> shape P T R -> length out = P * T ->
  exists Q, py_intrinsic_mwm (inj A) (inj B) (inj R) = Some Q /\ shape P T Q /\
    intrinsic_out_mwm T (inj A) (inj B) (inj R) out = Some (concat Q).
Proof.
  intros HA HB HR HO. destruct (intrinsic_out_mwm_ok P T A B R out HA HB HR HO) as (q & E & L & H).
  exists (inj (qadd2 (qadd2 A B) R)). split; [|split; [apply shape_inj; auto using qadd2_shape|]].
  - unfold py_intrinsic_mwm. rewrite (np_add2_inj P T) by auto. cbn [bind].
    rewrite (np_add2_inj P T) by auto using qadd2_shape. reflexivity.
  - rewrite E, concat_inj. f_equal. f_equal. assert (S2 : shape P T (qadd2 (qadd2 A B) R)) by auto using qadd2_shape.
    apply nth_ext with (d := 0%Qc) (d' := 0%Qc); [rewrite (concat_len P T); auto|].
    intros i Hi. rewrite L in Hi. assert (T <> 0) by (intros ->; lia).
    pose proof (Nat.div_mod i T H0) as X. pose proof (Nat.mod_upper_bound i T H0).
    assert (i / T < P) by (apply Nat.div_lt_upper_bound; auto; lia).
    rewrite X, (Nat.mul_comm T). rewrite H by auto. rewrite (concat_nth P T) by auto.
    change (nth (i mod T) (nth (i / T) (qadd2 (qadd2 A B) R) []) 0%Qc) with (qat (qadd2 (qadd2 A B) R) (i / T) (i mod T)).
    rewrite !(qadd2_at P T) by auto using qadd2_shape. reflexivity.
Qed.
