(** * Property C95: how far the values of the first TSP stage can grow. *)
From Coq Require Import Permutation.
From Verif Require Import NumFacts Arr ArrFacts SpecRun SpecGraph SpecCover MinSum MinSumFacts.
From Verif Require Import P_Tsp_Constraints M_InOut P_InOut M_Tsp_Run P_Tsp_Run P_Tsp_Fin.
From Verif Require Import M_Tsp_Py P_Tsp_Py T_Tsp_Run T_Tsp_Call T_Tsp_Sched T_Tsp_Order.
From Verif Require Import P_Assign P_Tsp_Assign T_Tsp_Assign T_Tsp_Sym.
From Verif Require P_Kc_Range P_Ksat_Range.
From Verif Require Import Spec Num.
Local Open Scope nat_scope.
Notation qn := P_Kc_Range.qn.

(** Ends of the range of a message after [t] iterations, costs between [lo] and [hi]. *)
Definition upper (lo hi : Qc) (t : nat) : Qc := (qn (t / 2) * (hi - lo) - (if Nat.even t then 0 else lo))%Qc.
Definition lower (lo hi : Qc) (t : nat) : Qc := (- (qn (t / 2) * (hi - lo)) - (if Nat.even t then 0 else hi))%Qc.

Lemma halves t : (Nat.even t = true /\ S t / 2 = t / 2 /\ Nat.even (S t) = false) \/
  (Nat.even t = false /\ S t / 2 = t / 2 + 1 /\ Nat.even (S t) = true).
Proof.
  rewrite Nat.even_succ, <- Nat.negb_even. destruct (Nat.even t) eqn:E; [left|right]; (split; [reflexivity|]; split; [|reflexivity]).
  - apply Nat.even_spec in E as [k ->]. replace (S (2 * k)) with (1 + k * 2) by lia. rewrite Nat.div_add by lia.
    replace (2 * k) with (k * 2) by lia. rewrite Nat.div_mul by lia. reflexivity.
  - assert (O : Nat.odd t = true) by (rewrite <- Nat.negb_even, E; reflexivity). apply Nat.odd_spec in O as [k ->].
    replace (S (2 * k + 1)) with ((k + 1) * 2) by lia. rewrite Nat.div_mul by lia.
    replace (2 * k + 1) with (1 + k * 2) by lia. rewrite Nat.div_add by lia. reflexivity.
Qed.
Lemma upper_S lo hi t : upper lo hi (S t) = (- (lo + lower lo hi t))%Qc.
Proof.
  unfold upper, lower. destruct (halves t) as [(-> & -> & ->)|(-> & -> & ->)]; [ring|].
  rewrite P_Ksat_Range.qn_add, P_Ksat_Range.qn_1. ring.
Qed.
Lemma lower_S lo hi t : lower lo hi (S t) = (- (hi + upper lo hi t))%Qc.
Proof.
  unfold upper, lower. destruct (halves t) as [(-> & -> & ->)|(-> & -> & ->)]; [ring|].
  rewrite P_Ksat_Range.qn_add, P_Ksat_Range.qn_1. ring.
Qed.

Section Ranges.
Variables (n : nat) (w : nat -> nat -> Qc) (R K DR DC : nat -> nat -> nat -> Qc).

Lemma unfiltered_range lo hi : schedule n 0%Qc w R K DR DC ->
  (forall u v, u < n -> v < n -> u <> v -> (lo <= w u v /\ w u v <= hi)%Qc) ->
  forall t u v, u < n -> v < n -> u <> v ->
    (lower lo hi t <= R t u v /\ R t u v <= upper lo hi t)%Qc /\ (lower lo hi t <= K t u v /\ K t u v <= upper lo hi t)%Qc.
Proof.
  intros (H0 & HS) Hw. induction t as [|t IH]; intros u v Hu Hv N.
  - destruct (H0 u v Hu Hv N) as (-> & ->). unfold lower, upper. change (qn (0 / 2)) with 0%Qc. cbn [Nat.even]. repeat split; qlra.
  - destruct (HS t u v Hu Hv N) as (((j & J1 & J2 & J3 & J4) & _) & ((l & L1 & L2 & L3 & L4) & _) & -> & ->).
    rewrite J4, L4, upper_S, lower_S.
    destruct (IH u j Hu J1 (not_eq_sym J2)) as (_ & A1 & A2). destruct (IH l v L1 Hv L2) as ((B1 & B2) & _).
    destruct (Hw u j Hu J1 (not_eq_sym J2)). destruct (Hw l v L1 Hv L2). repeat split; qlra.
Qed.
Lemma filtered_linear e C : (0 <= e /\ e <= 1)%Qc -> schedule n e w R K DR DC ->
  (forall u v, u < n -> v < n -> u <> v -> (- C <= w u v /\ w u v <= C)%Qc) -> (0 <= C)%Qc ->
  forall t u v, u < n -> v < n -> u <> v ->
    (- (qn t * C) <= R t u v /\ R t u v <= qn t * C)%Qc /\ (- (qn t * C) <= K t u v /\ K t u v <= qn t * C)%Qc.
Proof.
  intros (E0 & E1) (H0 & HS) Hw HC. induction t as [|t IH]; intros u v Hu Hv N.
  - destruct (H0 u v Hu Hv N) as (-> & ->). rewrite P_Ksat_Range.qn_0. repeat split; qlra.
  - destruct (HS t u v Hu Hv N) as (((j & J1 & J2 & J3 & J4) & _) & ((l & L1 & L2 & L3 & L4) & _) & -> & ->).
    change (S t) with (1 + t). rewrite P_Ksat_Range.qn_add, P_Ksat_Range.qn_1.
    destruct (IH u j Hu J1 (not_eq_sym J2)) as (_ & A1 & A2). destruct (IH l v L1 Hv L2) as ((B1 & B2) & _).
    destruct (IH u v Hu Hv N) as ((P1 & P2) & (Q1 & Q2)).
    destruct (Hw u j Hu J1 (not_eq_sym J2)). destruct (Hw l v L1 Hv L2).
    set (b := ((1 + qn t) * C)%Qc) in *.
    assert (Eb : b = (C + qn t * C)%Qc) by (unfold b; ring).
    assert (Mix : forall x y, (- b <= x /\ x <= b)%Qc -> (- b <= y /\ y <= b)%Qc -> (- b <= e * x + (1 - e) * y /\ e * x + (1 - e) * y <= b)%Qc).
    { intros x y (X1 & X2) (Y1 & Y2).
      assert (Mul : forall z, (0 <= z)%Qc -> (0 <= e * z)%Qc /\ (0 <= (1 - e) * z)%Qc).
      { intros z Hz. split; [pose proof (Qcmult_le_compat_r _ _ z E0 Hz) as P|pose proof (Qcmult_le_compat_r 0%Qc (1 - e)%Qc z ltac:(qlra) Hz) as P];
          rewrite Qcmult_0_l in P; exact P. }
      destruct (Mul (b - x)%Qc ltac:(qlra)). destruct (Mul (x + b)%Qc ltac:(qlra)).
      destruct (Mul (b - y)%Qc ltac:(qlra)). destruct (Mul (y + b)%Qc ltac:(qlra)). split; qlra. }
    split; apply Mix; rewrite ?J4, ?L4; split; qlra.
Qed.
End Ranges.

(** Full statement, any filtering with factor in [0, 1]: linear growth. *)
Theorem C95_linear :
  forall (o : tsp_options) (n : nat) (C : list (list Qc)) (ord : list nat -> list nat) (p : tsp_params) (st : tsp_state) (a B : Qc),
    3 <= n -> cost_matrix_ok n C -> q_alpha o = Fin a -> (q_filt o = true -> (0 <= a /\ a <= 1)%Qc) ->
    (forall l, Permutation (ord l) l) -> first_stage o n C ord p st -> (0 <= B)%Qc ->
    (forall u v, u < n -> v < n -> (- B <= qat C u v /\ qat C u v <= B)%Qc) ->
    forall u v, u < n -> v < n -> u <> v ->
      exists x, value_is p st u v x /\ (- (qn (2 * q_iters o) * B) <= x /\ x <= qn (2 * q_iters o) * B)%Qc.
Proof.
  intros o n C ord p st a B Hn HC Ha Hf Po F HB Hw u v Hu Hv N.
  destruct (stage_values o n C ord p st a Hn HC Ha Po F) as (R & K & DR & DK & Sc & _ & _ & Vs & _).
  exists (R (q_iters o) u v + K (q_iters o) u v)%Qc. split; [apply Vs; auto|].
  destruct (filtered_linear n (qat C) R K DR DK (effective (q_filt o) a) B) with (t := q_iters o) (u := u) (v := v) as (X & Y); auto.
  - unfold effective. destruct (q_filt o); cbn [andb]; [destruct (negb _); [auto|]|]; split; qlra.
  - rewrite P_Ksat_Range.qn_mul. change (qn 2) with (1 + 1)%Qc. destruct X, Y. split; qlra.
Qed.

(** Full statement without filtering, costs between [lo] and [hi]: the exact range. *)
Theorem C95_range :
  forall (o : tsp_options) (n : nat) (C : list (list Qc)) (ord : list nat -> list nat) (p : tsp_params) (st : tsp_state) (a lo hi : Qc),
    3 <= n -> cost_matrix_ok n C -> q_alpha o = Fin a -> q_filt o = false \/ a = 0%Qc ->
    (forall l, Permutation (ord l) l) -> first_stage o n C ord p st ->
    (forall u v, u < n -> v < n -> u <> v -> (lo <= qat C u v /\ qat C u v <= hi)%Qc) ->
    forall u v, u < n -> v < n -> u <> v ->
      exists x, value_is p st u v x /\
        (lower lo hi (q_iters o) + lower lo hi (q_iters o) <= x)%Qc /\ (x <= upper lo hi (q_iters o) + upper lo hi (q_iters o))%Qc.
Proof.
  intros o n C ord p st a lo hi Hn HC Ha Hf Po F Hw u v Hu Hv N.
  destruct (stage_values o n C ord p st a Hn HC Ha Po F) as (R & K & DR & DK & Sc & _ & _ & Vs & _).
  assert (Ef : effective (q_filt o) a = 0%Qc) by (unfold effective; destruct Hf as [->| ->]; [|destruct (q_filt o)]; reflexivity). rewrite Ef in Sc.
  exists (R (q_iters o) u v + K (q_iters o) u v)%Qc. split; [apply Vs; auto|].
  destruct (unfiltered_range n (qat C) R K DR DK lo hi Sc Hw (q_iters o) u v Hu Hv N) as ((X1 & X2) & (Y1 & Y2)). split; qlra.
Qed.

(** Both ends are attained: three cities, one way round costs [hi] an edge, the other [lo]. *)
Definition round3 (lo hi : Qc) : list (list Qc) := [[0%Qc; hi; lo]; [lo; 0%Qc; hi]; [hi; lo; 0%Qc]].
Theorem C95_attained :
  forall (o : tsp_options) (ord : list nat -> list nat) (p : tsp_params) (st : tsp_state) (a lo hi : Qc),
    lo <> 0%Qc -> hi <> 0%Qc -> q_alpha o = Fin a -> q_filt o = false \/ a = 0%Qc ->
    (forall l, Permutation (ord l) l) -> first_stage o 3 (round3 lo hi) ord p st ->
    forall u, u < 3 ->
      value_is p st u ((u + 1) mod 3) (upper lo hi (q_iters o) + upper lo hi (q_iters o))%Qc /\
      value_is p st u ((u + 2) mod 3) (lower lo hi (q_iters o) + lower lo hi (q_iters o))%Qc.
Proof.
  intros o ord p st a lo hi Nl Nh Ha Hf Po F u Hu.
  assert (HC : cost_matrix_ok 3 (round3 lo hi)).
  { split; [repeat constructor|]. split.
    - intros [|[|[|x]]] H; try lia; reflexivity.
    - intros [|[|[|x]]] [|[|[|y]]] H1 H2 H3; try lia; cbn; auto; congruence. }
  destruct (stage_values o 3 _ ord p st a ltac:(lia) HC Ha Po F) as (R & K & DR & DK & Sc & _ & _ & Vs & _).
  assert (Ef : effective (q_filt o) a = 0%Qc) by (unfold effective; destruct Hf as [->| ->]; [|destruct (q_filt o)]; reflexivity). rewrite Ef in Sc.
  destruct Sc as (H0 & HS).
  assert (G : forall t x y, x < 3 -> y < 3 -> x <> y ->
     R t x y = (if y =? (x + 1) mod 3 then upper lo hi t else lower lo hi t) /\
     K t x y = (if y =? (x + 1) mod 3 then upper lo hi t else lower lo hi t)).
  { induction t as [|t IH]; intros x y Hx Hy N.
    - assert (Z1 : upper lo hi 0 = 0%Qc) by (unfold upper; change (qn (0 / 2)) with 0%Qc; cbn [Nat.even]; ring).
      assert (Z2 : lower lo hi 0 = 0%Qc) by (unfold lower; change (qn (0 / 2)) with 0%Qc; cbn [Nat.even]; ring).
      rewrite Z1, Z2. destruct (H0 x y Hx Hy N) as (-> & ->). destruct (y =? (x + 1) mod 3); auto.
    - rewrite upper_S, lower_S.
      destruct (HS t x y Hx Hy N) as (((j & J1 & J2 & J3 & J4) & _) & ((l & L1 & L2 & L3 & L4) & _) & -> & ->).
      rewrite J4, L4. destruct (IH x j Hx J1 (not_eq_sym J2)) as (_ & ->). destruct (IH l y L1 Hy L2) as (-> & _).
      destruct x as [|[|[|x]]]; [| | |lia]; destruct y as [|[|[|y]]]; try lia; destruct j as [|[|[|j]]]; try lia;
        destruct l as [|[|[|l]]]; try lia; cbn; split; ring. }
  assert (N1 : (u + 1) mod 3 < 3 /\ u <> (u + 1) mod 3 /\ (u + 2) mod 3 < 3 /\ u <> (u + 2) mod 3 /\ (u + 2) mod 3 =? (u + 1) mod 3 = false).
  { destruct u as [|[|[|u]]]; [| | |lia]; cbn; repeat split; try lia; auto. }
  destruct N1 as (A1 & A2 & A3 & A4 & A5).
  destruct (G (q_iters o) u _ Hu A1 A2) as (G1 & G2). rewrite Nat.eqb_refl in G1, G2.
  destruct (G (q_iters o) u _ Hu A3 A4) as (G3 & G4). rewrite A5 in G3, G4. split.
  - rewrite <- G1 at 1. rewrite <- G2. apply Vs; auto.
  - rewrite <- G3 at 1. rewrite <- G4. apply Vs; auto.
Qed.

(** ** Examples *)
(** costs 5 and -2: after 4 iterations the values are 28 and -28 *)
Example C95_example :
  cost_matrix_ok 3 (round3 (zq (-2)) (zq 5)) /\
  option_map (fun st => map view (r_extr (t_sol st))) (stage_of (opt 3 false 20 3) 3 (round3 (zq (-2)) (zq 5)))
    = Some [VFin 18; VFin (-24); VFin (-24); VFin 18; VFin 18; VFin (-24)] /\
  option_map (fun st => map view (r_extr (t_sol st))) (stage_of (opt 4 false 20 3) 3 (round3 (zq (-2)) (zq 5)))
    = Some [VFin 28; VFin (-28); VFin (-28); VFin 28; VFin 28; VFin (-28)] /\
  map (fun t => view (Fin (upper (zq (-2)) (zq 5) t + upper (zq (-2)) (zq 5) t)%Qc)) [3; 4] = [VFin 18; VFin 28] /\
  map (fun t => view (Fin (lower (zq (-2)) (zq 5) t + lower (zq (-2)) (zq 5) t)%Qc)) [3; 4] = [VFin (-24); VFin (-28)].
Proof. split; [check_matrix|]. repeat split; vm_compute; reflexivity. Qed.
(** The factor of the filter matters: costs up to 5 in absolute value, one iteration, values up to 20. *)
Definition opt3 : tsp_options :=
  {| q_iters := 1; q_aug := true; q_reset := true; q_filt := true; q_alpha := zn 3; q_thr := thr4; q_max_count := 20; q_max_augm := 3 |}.
Example C95_factor_refuted :
  (forall u v, u < 3 -> v < 3 -> (- zq 5 <= qat (round3 (zq (-2)) (zq 5)) u v /\ qat (round3 (zq (-2)) (zq 5)) u v <= zq 5)%Qc) /\
  option_map (fun st => map view (r_extr (t_sol st))) (stage_of opt3 3 (round3 (zq (-2)) (zq 5)))
    = Some [VFin (-8); VFin 20; VFin 20; VFin (-8); VFin (-8); VFin 20].
Proof.
  split; [|vm_compute; reflexivity]. intros u v Hu Hv.
  do 3 (destruct u as [|u]; [do 3 (destruct v as [|v]; [split; discriminate|]); lia|]). lia.
Qed.

Print Assumptions C95_linear.
Print Assumptions C95_range.
Print Assumptions C95_attained.
Print Assumptions C95_factor_refuted.
