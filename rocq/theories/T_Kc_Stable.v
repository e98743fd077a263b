(** * Property C98 for KC-MWM: small changes of the rewards change the outputs little. *)
From Verif Require Import NumFacts Arr ArrFacts Spec SpecRun SpecRange MinSum M_InOut M_Runs M_Kc_Trellis M_Ksat_Py M_Kc_Py
  P_Tsp_Constraints P_Kc_Trellis P_Equality P_InOut P_Runs P_Schedule P_Kc_Run P_Kc_Range P_Kc_Stable P_Kc_Results T_InOut T_PyRef_Run T_Schedule T_Kc_Range.
From Verif Require SpecWithin.
From Verif Require Import Num.
Local Open Scope nat_scope.

(** Full statement: two calls with the same departments, weights and capacities whose rewards (of teams and of pairs) differ by
    at most [e] return values that differ by at most [(6 + 4 D T)^n e] after [n] iterations.  If no value of a pair is that close
    to the threshold, both calls match the same pairs. *)
Theorem C98_kc :
  forall (iters T D P : nat) (W : list (list nat)) (R R' : list (list Qc)) (reward reward' : list Qc)
         (caps : list nat) (flag : bool) (alpha e : Qc),
    kc_instance T D P W R reward caps -> shape P T R' -> length reward' = T ->
    (flag = true -> 0 <= alpha /\ alpha <= 1)%Qc -> (0 <= e)%Qc ->
    (forall x, x < T -> SpecWithin.within e (nth x reward 0%Qc) (nth x reward' 0%Qc)) ->
    (forall p x, p < P -> x < T -> SpecWithin.within e (qat R p x) (qat R' p x)) ->
    let bound := (zq (Z.of_nat ((6 + 4 * (D * T)) ^ iters)) * e)%Qc in
    exists ext ext' intr intr' pairs pairs' : list Qc,
      package_kc T D P W (inj R) (map Fin reward) caps iters flag (Fin alpha) = Some (map Fin ext, map Fin intr, map Fin pairs) /\
      package_kc T D P W (inj R') (map Fin reward') caps iters flag (Fin alpha) = Some (map Fin ext', map Fin intr', map Fin pairs') /\
      (length ext = T /\ length ext' = T) /\ (length intr = T /\ length intr' = T) /\ (length pairs = P * T /\ length pairs' = P * T) /\
      (forall x, x < T -> SpecWithin.within bound (nth x ext 0%Qc) (nth x ext' 0%Qc)) /\
      (forall x, x < T -> SpecWithin.within bound (nth x intr 0%Qc) (nth x intr' 0%Qc)) /\
      (forall k, k < P * T -> SpecWithin.within bound (nth k pairs 0%Qc) (nth k pairs' 0%Qc)) /\
      (forall thr, (forall k, k < P * T -> ~ SpecWithin.within bound (nth k pairs 0%Qc) thr) ->
         matching (Fin thr) (reshape P T (map Fin pairs)) = matching (Fin thr) (reshape P T (map Fin pairs'))).
Proof.
  intros iters T D P W R R' reward reward' caps flag alpha e (HW & HR & Hr & Hc & Hp & Hfit & Htwo) HR' Hr' Ha He Nr NR bound.
  destruct (C50_kc_run iters T D P W R reward caps flag alpha HW HR Hr Hc Hp Hfit Htwo) as
    (ext & pairs & K & EO & Dm & X & TO & CE & EP & PE & OT & E & Le & Lp & K0 & EO0 & SE & St & Re & Rp).
  destruct (C50_kc_run iters T D P W R' reward' caps flag alpha HW HR' Hr' Hc Hp Hfit Htwo) as
    (ext' & pairs' & K' & EO' & Dm' & X' & TO' & CE' & EP' & PE' & OT' & E' & Le' & Lp' & K0' & EO0' & SE' & St' & Re' & Rp').
  pose proof (both_all T D P W caps flag alpha HW Hc Ha R R' reward reward' K EO Dm X TO CE EP PE OT K' EO' Dm' X' TO' CE' EP' PE' OT'
    EO0 EO0' K0 K0' SE SE' St St' e He Nr NR) as B.
  exists ext, ext', (zip_with Qcplus ext reward), (zip_with Qcplus ext' reward'), pairs, pairs'.
  split; [unfold package_kc; rewrite E; cbn [bind]; now rewrite zip_Fin|].
  split; [unfold package_kc; rewrite E'; cbn [bind]; now rewrite zip_Fin|].
  split; [auto|]. split; [rewrite !zip_with_length, Le, Le', Hr, Hr', Nat.min_id; auto|]. split; [auto|].
  assert (Sb : forall t, iters = S t -> spread T D e (t + 1) = bound).
  { intros t ->. unfold spread, bound, L, qn. replace (t + 1) with (S t) by lia. reflexivity. }
  assert (Eb : (e <= bound)%Qc) by (change bound with (spread T D e iters); exact (spread_e T D caps Hc e He iters)).
  assert (Np : forall k, k < P * T -> SpecWithin.within bound (nth k pairs 0%Qc) (nth k pairs' 0%Qc)).
  { intros k Hk. assert (HT : T <> 0) by (intros ->; lia).
    rewrite (Nat.div_mod k T HT), (Nat.mul_comm T). assert (Hx : k mod T < T) by (apply Nat.mod_upper_bound; auto).
    assert (Hpp : k / T < P) by (apply Nat.div_lt_upper_bound; lia). rewrite Rp, Rp' by auto.
    destruct iters as [|t]; [apply near_refl; qlra|]. cbn [Nat.eqb]. replace (S t - 1) with t by lia. 
    pose proof (pair_near T D P W caps flag alpha HW Hc Ha R R' reward reward' K EO Dm X TO CE EP PE OT K' EO' Dm' X' TO' CE' EP' PE' OT' SE SE' St St' e He Nr NR t (fun i _ => B i) _ _ Hpp Hx) as N. rewrite (Sb t eq_refl) in N. exact N. }
  assert (Nz : forall a b x, length a = T -> length b = T -> x < T -> nth x (zip_with Qcplus a b) 0%Qc = (nth x a 0 + nth x b 0)%Qc).
  { clear. intros a b x. revert a b T. induction x as [|x IH]; intros [|u a] [|v b] T La Lb Hx; cbn in *; try lia; [reflexivity|].
    destruct T; [lia|]. apply (IH a b T); lia. }
  split; [|split; [|split; [exact Np|]]].
  - intros x Hx. rewrite Re, Re' by auto. destruct iters as [|t]; [apply near_refl; qlra|]. cbn [Nat.eqb]. replace (S t - 1) with t by lia. 
      destruct (team_near T D P W caps flag alpha HW Hc Ha R R' reward reward' K EO Dm X TO CE EP PE OT K' EO' Dm' X' TO' CE' EP' PE' OT' SE SE' St St' e He Nr NR t (fun i _ => B i) x Hx) as (_ & N). rewrite (Sb t eq_refl) in N. exact N.
  - intros x Hx. rewrite !Nz by auto. rewrite Re, Re' by auto. destruct iters as [|t].
    + eapply near_le; [apply near_plus; [apply near_refl, Qcle_refl|apply Nr, Hx]|]. qlra.
    + cbn [Nat.eqb]. replace (S t - 1) with t by lia. 
      destruct (team_near T D P W caps flag alpha HW Hc Ha R R' reward reward' K EO Dm X TO CE EP PE OT K' EO' Dm' X' TO' CE' EP' PE' OT' SE SE' St St' e He Nr NR t (fun i _ => B i) x Hx) as (N & _). rewrite (Sb t eq_refl) in N. exact N.
  - intros thr Hthr. unfold matching.
    assert (Get : forall (v : list Qc) p x, length v = P * T -> p < P -> x < T -> nth x (nth p (reshape P T (map Fin v)) []) NaN = Fin (nth (p * T + x) v 0%Qc)).
    { clear. intros v p x Lv Hp Hx. unfold reshape. rewrite (nth_indep _ _ (firstn T (skipn (T * 0) (map Fin v)))) by (rewrite map_length, seq_length; lia).
      rewrite (map_nth (fun i => firstn T (skipn (T * i) (map Fin v)))), seq_nth by lia. cbn [Nat.add].
      assert (Lt : p * T + x < length v) by nia.
      replace (nth x (firstn T (skipn (T * p) (map Fin v))) NaN) with (nth x (skipn (T * p) (map Fin v)) NaN).
      2:{ rewrite <- (firstn_skipn T (skipn (T * p) (map Fin v))) at 1. rewrite app_nth1; [reflexivity|]. rewrite firstn_length, skipn_length, map_length. nia. }
      replace (nth x (skipn (T * p) (map Fin v)) NaN) with (nth (T * p + x) (map Fin v) NaN).
      2:{ rewrite <- (firstn_skipn (T * p) (map Fin v)) at 1. rewrite app_nth2; rewrite firstn_length, map_length, Nat.min_l by nia; [f_equal; lia|lia]. }
      rewrite (nth_indep _ NaN (Fin 0%Qc)) by (rewrite map_length; nia). rewrite map_nth. do 2 f_equal. lia. }
    assert (Row : forall (v : list Qc) p, length v = P * T -> p < P -> length (nth p (reshape P T (map Fin v)) []) = T).
    { clear. intros v p Lv Hp. unfold reshape. rewrite (nth_indep _ _ (firstn T (skipn (T * 0) (map Fin v)))) by (rewrite map_length, seq_length; lia).
      rewrite (map_nth (fun i => firstn T (skipn (T * i) (map Fin v)))), seq_nth by lia. rewrite firstn_length, skipn_length, map_length. nia. }
    assert (Len : forall v : list Qc, length (reshape P T (map Fin v)) = P) by (intros v; unfold reshape; now rewrite map_length, seq_length).
    assert (Pos : positions (reshape P T (map Fin pairs)) = positions (reshape P T (map Fin pairs'))).
    { unfold positions. rewrite !Len. f_equal. apply map_ext_in. intros p I. apply in_seq in I. rewrite !Row by (auto; lia). reflexivity. }
    rewrite <- Pos. apply filter_ext_in. intros (p, x) I. apply in_positions in I as (Ip & Ix). rewrite Len in Ip. rewrite Row in Ix by auto.
    cbn [fst snd]. rewrite !Get by auto. assert (Hk : p * T + x < P * T) by nia. specialize (Np _ Hk). specialize (Hthr _ Hk).
    unfold kc_decide, ngt. cbn [nlt]. generalize dependent (nth (p * T + x) pairs' 0%Qc). generalize dependent (nth (p * T + x) pairs 0%Qc).
    intros a Ha' b Hb. unfold SpecWithin.within in *.
    destruct (qltb_spec thr a), (qltb_spec thr b); cbn [nlt]; try reflexivity.
    + exfalso. apply Ha'. split; qlra.
    + exfalso. apply Ha'. split; qlra.
    + destruct (qltb_spec a thr), (qltb_spec b thr); try reflexivity; exfalso; apply Ha'; split; qlra.
Qed.

(** ** Example: one reward of a team and one of a pair changed by 1/1000, two iterations.  The bound is 9/10; all values of pairs
    are further from the threshold 0, and both calls match project 0 with team 0 and project 1 with team 1. *)
Definition kc_near_reward : list Qc := [zq (-1); Q2Qc (-2001 # 1000); zq (-3)].
Definition kc_near_R : list (list Qc) := [[Q2Qc (-3999 # 1000); zq (-1); zq (-2)]; [zq (-3); zq (-5); zq (-1)]].
Definition outputs_of (r : option (list num * list num * list num)) :=
  option_map (fun r => (map view (fst (fst r)), map view (snd (fst r)), map view (snd r), matching n0 (reshape 2 3 (snd r)))) r.
Example C98_kc_example :
  kc_instance 3 2 2 kcW (kcR (-4)%Z) kc_reward3 [3; 2] /\ shape 2 3 kc_near_R /\
  (forall x, x < 3 -> SpecWithin.within (Q2Qc (1 # 1000)) (nth x kc_reward3 0%Qc) (nth x kc_near_reward 0%Qc)) /\
  (forall p x, p < 2 -> x < 3 -> SpecWithin.within (Q2Qc (1 # 1000)) (qat (kcR (-4)%Z) p x) (qat kc_near_R p x)) /\
  (zq (Z.of_nat ((6 + 4 * (2 * 3)) ^ 2)) * Q2Qc (1 # 1000) = Q2Qc (9 # 10))%Qc /\
  outputs_of (package_kc 3 2 2 kcW (inj (kcR (-4)%Z)) (map Fin kc_reward3) [3; 2] 2 false n0)
  = Some ([VFin (-3); VFin (-3); VFin 7], [VFin (-4); VFin (-5); VFin 4],
          [VFin (-4); VFin 6; VFin 4; VFin 5; VFin (-5); VFin 6], [(0, 0); (1, 1)]) /\
  outputs_of (package_kc 3 2 2 kcW (inj kc_near_R) (map Fin kc_near_reward) [3; 2] 2 false n0)
  = Some ([VFin (-3); VFin (-1499 # 500); VFin 7], [VFin (-4); VFin (-4999 # 1000); VFin 4],
          [VFin (-4); VFin (5999 # 1000); VFin 4; VFin (4999 # 1000); VFin (-4999 # 1000); VFin (6001 # 1000)], [(0, 0); (1, 1)]).
Proof.
  split; [apply kc_instance3; repeat constructor|]. split; [repeat constructor|].
  split; [intros x Hx; do 3 (destruct x as [|x]; [split; discriminate|]); lia|].
  split; [intros p x Hp Hx; do 2 (destruct p as [|p]; [do 3 (destruct x as [|x]; [split; discriminate|]); lia|]); lia|].
  split; [apply Qc_is_canon; vm_compute; reflexivity|]. split; vm_compute; reflexivity.
Qed.
Print Assumptions C98_kc.
