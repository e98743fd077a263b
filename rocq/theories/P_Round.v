(** * Rounding to nearest leaves the numbers of the format alone. *)
From Coq Require Import Qpower.
From Verif Require Import Num SpecRound.
Local Open Scope Z_scope.

Lemma two_nz : ~ inject_Z 2 == 0.
Proof. discriminate. Qed.
Lemma pow2_shift s k : 0 <= k -> pow2 (s + k) = (pow2 s * zq (2 ^ k))%Qc.
Proof.
  intros Hk. apply Qc_is_canon. unfold pow2, zq, Qcmult, Q2Qc. cbn [this].
  rewrite !Qred_correct, Qpower_plus by exact two_nz. rewrite Zpower_Qpower by exact Hk. reflexivity.
Qed.
Lemma pow2_pos e : (0 < pow2 e)%Qc.
Proof.
  unfold Qclt, pow2, Q2Qc. cbn [this]. rewrite !Qred_correct.
  assert (P : forall n, 0 <= n -> (0 < Qpower (inject_Z 2) n)%Q).
  { intros n Hn. rewrite <- Zpower_Qpower by exact Hn. change 0%Q with (inject_Z 0).
    rewrite <- Zlt_Qlt. lia. }
  destruct (Z_le_gt_dec 0 e) as [H|H]; [apply P; exact H|].
  assert (E : (Qpower (inject_Z 2) e * Qpower (inject_Z 2) (- e) == 1)%Q).
  { rewrite <- Qpower_plus by exact two_nz. replace (e + - e) with 0 by lia. reflexivity. }
  pose proof (P (- e) ltac:(lia)) as H1. 
  destruct (Qlt_le_dec 0 (Qpower (inject_Z 2) e)) as [L|L]; [exact L|exfalso].
  assert (X : (Qpower (inject_Z 2) e * Qpower (inject_Z 2) (- e) <= 0 * Qpower (inject_Z 2) (- e))%Q).
  { apply Qmult_le_compat_r; [exact L | apply Qlt_le_weak; exact H1]. }
  rewrite E in X. revert X. unfold Qle. cbn. lia.
Qed.

(** the numerator and denominator of [m * 2^e] *)
Lemma parts m e q T : q = (zq m * pow2 e)%Qc -> 0 <= T -> 0 <= T + e ->
  Qnum (this q) * 2 ^ T = m * 2 ^ (T + e) * Zpos (Qden (this q)).
Proof.
  intros -> HT HE.
  assert (E : (this (zq m * pow2 e)%Qc * inject_Z (2 ^ T) == inject_Z (m * 2 ^ (T + e)))%Q).
  { unfold zq, pow2, Qcmult, Q2Qc. cbn [this]. rewrite !Qred_correct.
    rewrite inject_Z_mult, !Zpower_Qpower by assumption. rewrite Qpower_plus by exact two_nz. ring. }
  revert E. generalize (this (zq m * pow2 e)%Qc). intros [n d]. unfold Qeq. cbn. rewrite ?Pos.mul_1_r. lia.
Qed.
Lemma quotient_exact k b : 0 < b -> quotient_even (k * b) b = k.
Proof.
  intros H. unfold quotient_even. rewrite Z.div_mul, Z.mod_mul by lia.
  replace (2 * 0 <? b) with true by (symmetry; apply Z.ltb_lt; lia). reflexivity.
Qed.

Lemma nearest_keeps prec emin emax : 0 <= prec -> keeps (binary prec emin emax) (nearest prec emin emax).
Proof.
  intros Hp q (m & e & Hm & He & Hq). unfold nearest.
  set (n := Qnum (this q)). set (d := Zpos (Qden (this q))). cbv zeta.
  assert (Hd : 0 < d) by (unfold d; lia).
  assert (P : forall T, 0 <= T -> 0 <= T + e -> n * 2 ^ T = m * 2 ^ (T + e) * d).
  { intros T H1 H2. exact (parts m e q T Hq H1 H2). }
  assert (PA : forall T, 0 <= T -> 0 <= T + e -> Z.abs n * 2 ^ T = Z.abs m * 2 ^ (T + e) * d).
  { intros T H1 H2. pose proof (P T H1 H2) as E. apply (f_equal Z.abs) in E.
    rewrite !Z.abs_mul in E. rewrite (Z.abs_eq (2 ^ T)), (Z.abs_eq (2 ^ (T + e))), (Z.abs_eq d) in E by lia.
    exact E. }
  destruct (Z.abs n =? 0) eqn:E0.
  { apply Z.eqb_eq in E0. f_equal. rewrite Hq. pose proof (P (Z.abs e) ltac:(lia) ltac:(lia)) as E.
    assert (n = 0) by lia. assert (m = 0).
    { assert (0 < 2 ^ (Z.abs e + e)) by (apply Z.pow_pos_nonneg; lia). nia. }
    subst m. replace (zq 0) with 0%Qc by (apply Qc_is_canon; reflexivity). ring. }
  apply Z.eqb_neq in E0. assert (Ha : 0 < Z.abs n) by lia. set (a := Z.abs n) in *.
  set (g := Z.log2 a - Z.log2 d).
  set (l := if (if 0 <=? g then d * 2 ^ g <=? a else d <=? a * 2 ^ (- g)) then g else g - 1).
  assert (Hl : forall T, 0 <= T -> 0 <= T + l -> d * 2 ^ (T + l) <= a * 2 ^ T).
  { intros T H1 H2. unfold l in H2 |- *.
    destruct (if 0 <=? g then d * 2 ^ g <=? a else d <=? a * 2 ^ (- g)) eqn:B.
    - destruct (0 <=? g) eqn:G.
      + apply Z.leb_le in G, B. rewrite Z.pow_add_r by lia.
        assert (0 < 2 ^ T) by (apply Z.pow_pos_nonneg; lia). nia.
      + apply Z.leb_le in B. apply Z.leb_gt in G.
        replace T with ((T + g) + - g) at 2 by lia. rewrite (Z.pow_add_r 2 (T + g) (- g)) by lia.
        assert (0 < 2 ^ (T + g)) by (apply Z.pow_pos_nonneg; lia). nia.
    - pose proof (Z.log2_spec a Ha) as [A1 _]. pose proof (Z.log2_spec d Hd) as [_ D2].
      unfold g in H2 |- *.
      pose proof (Z.log2_nonneg a). pose proof (Z.log2_nonneg d).
      apply Z.le_trans with (2 ^ Z.succ (Z.log2 d) * 2 ^ (T + (Z.log2 a - Z.log2 d - 1))).
      + apply Z.mul_le_mono_nonneg_r; [apply Z.pow_nonneg|]; lia.
      + rewrite <- Z.pow_add_r by lia.
        replace (Z.succ (Z.log2 d) + (T + (Z.log2 a - Z.log2 d - 1))) with (Z.log2 a + T) by lia.
        rewrite Z.pow_add_r by lia. apply Z.mul_le_mono_nonneg_r; [apply Z.pow_nonneg|]; lia. }
  assert (Ls : l - prec + 1 <= e).
  { set (T := Z.abs l + Z.abs e).
    pose proof (Hl T ltac:(lia) ltac:(lia)) as L. rewrite (PA T) in L by lia.
    assert (0 < 2 ^ (T + e)) by (apply Z.pow_pos_nonneg; lia).
    assert (X : d * 2 ^ (T + l) < d * (2 ^ prec * 2 ^ (T + e))) by nia.
    rewrite <- Z.pow_add_r in X by lia.
    apply Z.mul_lt_mono_pos_l in X; [|exact Hd].
    apply Z.pow_lt_mono_r_iff in X; lia. }
  set (s := Z.max (l - prec + 1) emin). assert (Hs : s <= e) by lia.
  set (k := if 0 <=? s then quotient_even a (d * 2 ^ s) else quotient_even (a * 2 ^ (- s)) d).
  assert (Hk : k = Z.abs m * 2 ^ (e - s)).
  { unfold k. destruct (0 <=? s) eqn:S0.
    - apply Z.leb_le in S0.
      pose proof (PA 0 ltac:(lia) ltac:(lia)) as E. cbn in E. rewrite Z.mul_1_r in E.
      rewrite E. replace (Z.abs m * 2 ^ e * d) with ((Z.abs m * 2 ^ (e - s)) * (d * 2 ^ s)).
      + apply quotient_exact. assert (0 < 2 ^ s) by (apply Z.pow_pos_nonneg; lia). nia.
      + replace (2 ^ e) with (2 ^ (e - s) * 2 ^ s); [ring|].
        rewrite <- Z.pow_add_r by lia. f_equal. lia.
    - apply Z.leb_gt in S0. rewrite (PA (- s)) by lia. replace (- s + e) with (e - s) by lia.
      apply quotient_exact. exact Hd. }
  assert (O : (emax <? s) || ((s =? emax) && (2 ^ prec <=? k)) = false).
  { apply Bool.orb_false_iff. split; [apply Z.ltb_ge; lia|].
    destruct (s =? emax) eqn:S1; [|reflexivity]. apply Z.eqb_eq in S1. cbn [andb].
    apply Z.leb_gt. rewrite Hk. replace (e - s) with 0 by lia. cbn. lia. }
  rewrite O. f_equal. rewrite Hq, Hk.
  replace (zq m * pow2 e)%Qc with (zq (m * 2 ^ (e - s)) * pow2 s)%Qc.
  - f_equal. f_equal.
    assert (Sg : Z.sgn n = Z.sgn m).
    { pose proof (P (Z.abs e) ltac:(lia) ltac:(lia)) as E.
      assert (0 < 2 ^ (Z.abs e + e)) by (apply Z.pow_pos_nonneg; lia).
      assert (0 < 2 ^ (Z.abs e)) by (apply Z.pow_pos_nonneg; lia).
      apply (f_equal Z.sgn) in E. rewrite !Z.sgn_mul in E.
      rewrite (Z.sgn_pos (2 ^ Z.abs e)), (Z.sgn_pos (2 ^ (Z.abs e + e))), (Z.sgn_pos d) in E by assumption.
      lia. }
    rewrite Sg, Z.mul_assoc, (Z.mul_comm (Z.sgn m)), Z.abs_sgn. reflexivity.
  - replace e with (s + (e - s)) at 2 by lia. rewrite pow2_shift by lia.
    replace (zq (m * 2 ^ (e - s))) with (zq m * zq (2 ^ (e - s)))%Qc; [ring|].
    apply Qc_is_canon. unfold zq, Qcmult, Q2Qc. cbn [this]. rewrite !Qred_correct, inject_Z_mult. reflexivity.
Qed.
Lemma ieee_keeps : keeps double ieee.
Proof. apply nearest_keeps. lia. Qed.
