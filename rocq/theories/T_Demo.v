(** * C88: the demonstration programs *)
From Coq Require Import Permutation.
From Verif Require Import Num NumFacts Arr ArrFacts Spec SpecSelection SpecRun SpecCover MinSum MinSumFacts M_InOut M_Runs M_Tsp_Run M_Tsp_Py M_Demo
  P_Tsp_Py P_Ksat P_Ksat_Limit P_Tsp_Assign T_Kc_Best T_Runs T_Schedule T_Tsp_Call.
From Verif Require Import Num.
Local Open Scope nat_scope.

(** ** K-SAT *)

(** message of a clause of three literals to one of them, the cost of making the others true being [u] and [w] *)
Definition three_val (u w : Qc) (s : bool) : Qc :=
  ((if qltb u 0 || qltb w 0 then 0 else if qltb u w then - u else - w) * sgn s)%Qc.
Lemma three cs i s u w : remove_at i cs = [u; w] -> clause_val cs i s = Fin (three_val u w s).
Proof.
  intro E. unfold clause_val, alo, three_val. rewrite E. cbn [map nmins fold_right negsum].
  unfold nmin, nmax. cbn.
  destruct (qltb_spec u 0), (qltb_spec w 0), (qltb_spec u w), (qltb_spec w u); cbn; try (exfalso; qlra);
    repeat match goal with |- context [qltb ?a ?b] => destruct (qltb_spec a b); cbn; try (exfalso; qlra) end;
    destruct s; unfold sgn; f_equal; qlra.
Qed.
Lemma three_eq sg m i s u w v : minsum_message (clause_ok sg) m i (Fin v) ->
  length sg = length m -> nth_error sg i = Some s -> remove_at i (lit_costs sg m) = [u; w] -> v = three_val u w s.
Proof.
  intros H L N E. pose proof (minsum_message_unique _ _ _ _ _ H (clause_message sg m i s L N)) as X.
  rewrite (three _ _ _ _ _ E) in X. injection X; auto.
Qed.
Lemma three_neg u w s : (u < 0 \/ w < 0)%Qc -> three_val u w s = 0%Qc.
Proof.
  intro H. unfold three_val. destruct (qltb_spec u 0), (qltb_spec w 0); cbn; try ring. exfalso. destruct H; qlra.
Qed.
Lemma three_min u w s : (0 <= u)%Qc -> (u <= w)%Qc -> three_val u w s = (- u * sgn s)%Qc.
Proof.
  intros H H'. unfold three_val. destruct (qltb_spec u 0), (qltb_spec w 0), (qltb_spec u w); cbn; try ring; try (exfalso; qlra).
  replace w with u by qlra. ring.
Qed.

Lemma filtered_same flag a d d' t : (forall r, d r = d' r) -> filtered flag a d t = filtered flag a d' t.
Proof. intros H. induction t as [|t IH]; [rewrite !filtered_0|rewrite !filtered_S, IH]; rewrite H; reflexivity. Qed.
(** filtering a constant, and a geometric sequence of the same ratio *)
Lemma filtered_const flag a c t :
  filtered flag a (fun _ => c) t = (c * (1 - effective flag a ^ (t + 1)))%Qc.
Proof.
  induction t as [|t IH]; [rewrite filtered_0|rewrite filtered_S, IH]; rewrite ?Nat.add_1_r; cbn [Qcpower Nat.add]; ring.
Qed.
Lemma filtered_geo flag a c d t : 
  filtered flag a (fun i => c + d * effective flag a ^ i)%Qc t =
  (c * (1 - effective flag a ^ (t + 1)) + d * (1 - effective flag a) * qn (t + 1) * effective flag a ^ t)%Qc.
Proof.
  induction t as [|t IH]; [rewrite filtered_0|rewrite filtered_S, IH].
  - cbn [Qcpower Nat.add]. change (qn 1) with 1%Qc. ring.
  - rewrite !Nat.add_1_r. cbn [Qcpower]. change (qn (S (S t))) with (qn (S t) + 1)%Qc. ring.
Qed.

Lemma qmul_nonneg a b : (0 <= a -> 0 <= b -> 0 <= a * b)%Qc.
Proof. intros A B. pose proof (Qcmult_le_compat_r 0 a b A B) as X. rewrite Qcmult_0_l in X. exact X. Qed.
Lemma qpow_le1 e t : (0 <= e -> e <= 1 -> 0 <= e ^ t /\ e ^ t <= 1)%Qc.
Proof.
  intros H0 H1. induction t as [|t (A & B)]; cbn [Qcpower]; [split; qlra|].
  split; [apply qmul_nonneg; auto|].
  apply Qcle_trans with (1 * e ^ t)%Qc; [apply Qcmult_le_compat_r; auto|rewrite Qcmult_1_l; auto].
Qed.
Lemma effective_range flag a : (0 <= a -> a <= 1 -> 0 <= effective flag a /\ effective flag a <= 1)%Qc.
Proof. intros. unfold effective. destruct (flag && _); split; qlra. Qed.
Lemma effective_eq (flag : bool) a : effective flag a = if flag then a else 0%Qc.
Proof.
  unfold effective. destruct flag; cbn; auto. destruct (Qc_eq_bool a 0) eqn:E; cbn; auto.
  apply Qc_eq_bool_correct in E. congruence.
Qed.

(** C88 (K-SAT).  What the program prints after [n] iterations, for every number of iterations and
    every filtering parameter between 0 and 1 ([e] = 0 if filtering is off): the two numbers that are
    not zero, in closed form.  [s] and [c] are the metrics of x4 (negated) and x2. *)
Theorem C88_ksat : forall n (flag : bool) alpha, (0 <= alpha)%Qc -> (alpha <= 1)%Qc ->
  let e := if flag then alpha else 0%Qc in
  let s := dec8 215600797 in let c := dec8 437984813 in
  demo_ksat n flag (Fin alpha) = Some (map Fin
    [ (- ((c + s) * (1 - e ^ n)) + s * (1 - e) * qn n * e ^ (n - 1))%Qc; 0%Qc; (s * (1 - e ^ n))%Qc; 0%Qc; 0%Qc ]).
Proof.
  intros n flag alpha H0 H1. rewrite <- effective_eq. intros e s c.
  destruct (effective_range flag alpha H0 H1) as (E0 & E1). change (effective flag alpha) with e in E0, E1.
  destruct (C49_ksat_run n 5 2 3 dk_used dk_metrics dk_conx dk_types dk_messages dk_varconx flag alpha)
    as (ext & V & D & M & E & L & EV & HT & HX).
  { lia. } { reflexivity. }
  1-3: split; [reflexivity|repeat constructor].
  { intros [|[|d]] cx tys A B; cbn in A, B; [injection A as <-; injection B as <-..|destruct d; discriminate A];
      (split; [reflexivity|split; [reflexivity|split; [|split]]]);
      [repeat constructor; cbn; lia|repeat constructor|repeat constructor; (left; reflexivity) || (right; reflexivity)
      |repeat constructor; cbn; lia|repeat constructor|repeat constructor; (left; reflexivity) || (right; reflexivity)]. }
  { reflexivity. } { repeat constructor. }
  { intros [|[|[|[|[|x]]]]] l A; cbn in A; [injection A as <-..|destruct x; discriminate A];
      (split; [repeat constructor; cbn; lia|repeat constructor]). }
  { intros [|[|[|[|[|x]]]]] Hx N; try (exfalso; apply N; cbn; lia); reflexivity. }
  unfold demo_ksat. change (wrapper_ksat n 5 2 4) with (wrapper_ksat n 5 2 (length dk_used)).
  change dk_sizes with (map (@length nat) dk_varconx). rewrite E. clear E. f_equal. f_equal.
  set (m0 := dec8 (-266808398)). set (m3 := dec8 (-713066003)). set (m4 := dec8 (-215600797)).
  (* clause 1 *)
  assert (V10 : forall t, qat (V t) 1 0 = m0).
  { intros [|t]; [rewrite EV; reflexivity|]. destruct (HT t) as (_ & _ & C & _).
    rewrite <- Nat.add_1_r, (C 0 [1] 1) by (cbn; auto). cbn. unfold m0. ring. }
  assert (N0 : (m0 < 0)%Qc) by reflexivity. assert (N3 : (m3 < 0)%Qc) by reflexivity.
  assert (K1 : forall t j x, nth_error [2; 0; 3] j = Some x ->
     minsum_message (clause_ok [true; true; false]) [qat (V t) 1 2; qat (V t) 1 0; qat (V t) 1 3] j (Fin (qat (D t) 1 x))).
  { intros t. destruct (HT t) as (A & _). apply (A 1 [2; 0; 3] [1; 1; -1]%Z); reflexivity. }
  assert (K0 : forall t j x, nth_error [4; 2; 3] j = Some x ->
     minsum_message (clause_ok [false; false; false]) [qat (V t) 0 4; qat (V t) 0 2; qat (V t) 0 3] j (Fin (qat (D t) 0 x))).
  { intros t. destruct (HT t) as (A & _). apply (A 0 [4; 2; 3] [-1; -1; -1]%Z); reflexivity. }
  assert (D12 : forall t, qat (D t) 1 2 = 0%Qc).
  { intros t. rewrite (three_eq _ _ 0 true _ _ _ (K1 t 0 2 eq_refl) eq_refl eq_refl eq_refl).
    apply three_neg. left. rewrite V10. unfold sgn. qlra. }
  assert (D13 : forall t, qat (D t) 1 3 = 0%Qc).
  { intros t. rewrite (three_eq _ _ 2 false _ _ _ (K1 t 2 3 eq_refl) eq_refl eq_refl eq_refl).
    apply three_neg. right. rewrite V10. unfold sgn. qlra. }
  assert (FM : forall t c x, c < 2 -> x < 5 -> qat (M t) c x = filtered flag alpha (fun i => qat (D i) c x) t).
  { intros t. destruct (HT t) as (_ & B & _). exact B. }
  assert (M12 : forall t, qat (M t) 1 2 = 0%Qc) by (intro t; rewrite FM by lia; apply filtered_none; auto).
  assert (M13 : forall t, qat (M t) 1 3 = 0%Qc) by (intro t; rewrite FM by lia; apply filtered_none; auto).
  (* clause 0 *)
  assert (V04 : forall t, qat (V t) 0 4 = m4).
  { intros [|t]; [rewrite EV; reflexivity|]. destruct (HT t) as (_ & _ & C & _).
    rewrite <- Nat.add_1_r, (C 4 [0] 0) by (cbn; auto). cbn. unfold m4. ring. }
  assert (V02 : forall t, qat (V t) 0 2 = c).
  { intros [|t]; [rewrite EV; reflexivity|]. destruct (HT t) as (_ & _ & C & _).
    rewrite <- Nat.add_1_r, (C 2 [0; 1] 0) by (cbn; auto). cbn. rewrite M12. unfold c. ring. }
  assert (V03 : forall t, qat (V t) 0 3 = m3).
  { intros [|t]; [rewrite EV; reflexivity|]. destruct (HT t) as (_ & _ & C & _).
    rewrite <- Nat.add_1_r, (C 3 [0; 1] 0) by (cbn; auto). cbn. rewrite M13. unfold m3. ring. }
  assert (Nc : (0 < c)%Qc) by reflexivity.
  assert (D04 : forall t, qat (D t) 0 4 = 0%Qc).
  { intros t. rewrite (three_eq _ _ 0 false _ _ _ (K0 t 0 4 eq_refl) eq_refl eq_refl eq_refl).
    apply three_neg. left. rewrite V02. unfold sgn. qlra. }
  assert (D03 : forall t, qat (D t) 0 3 = 0%Qc).
  { intros t. rewrite (three_eq _ _ 2 false _ _ _ (K0 t 2 3 eq_refl) eq_refl eq_refl eq_refl).
    apply three_neg. right. rewrite V02. unfold sgn. qlra. }
  assert (D02 : forall t, qat (D t) 0 2 = s).
  { intros t. rewrite (three_eq _ _ 1 false _ _ _ (K0 t 1 2 eq_refl) eq_refl eq_refl eq_refl).
    rewrite V04, V03. reflexivity. }
  assert (M02 : forall t, qat (M t) 0 2 = (s * (1 - e ^ (t + 1)))%Qc).
  { intro t. rewrite FM by lia. rewrite (filtered_same flag alpha _ (fun _ => s)) by auto. apply filtered_const. }
  assert (M03 : forall t, qat (M t) 0 3 = 0%Qc) by (intro t; rewrite FM by lia; apply filtered_none; auto).
  assert (M04 : forall t, qat (M t) 0 4 = 0%Qc) by (intro t; rewrite FM by lia; apply filtered_none; auto).
  (* x0 *)
  assert (V12 : forall t, qat (V t) 1 2 = (c + s * (1 - e ^ t))%Qc).
  { intros [|t]; [rewrite EV; change (qat dk_messages 1 2) with c; cbn; ring|]. destruct (HT t) as (_ & _ & C & _).
    rewrite <- Nat.add_1_r, (C 2 [0; 1] 1) by (cbn; auto). cbn [others]. cbn. rewrite M02. unfold c. ring. }
  assert (V13 : forall t, qat (V t) 1 3 = m3).
  { intros [|t]; [rewrite EV; reflexivity|]. destruct (HT t) as (_ & _ & C & _).
    rewrite <- Nat.add_1_r, (C 3 [0; 1] 1) by (cbn; auto). cbn. rewrite M03. unfold m3. ring. }
  assert (D10 : forall t, qat (D t) 1 0 = (- (c + s) + s * e ^ t)%Qc).
  { intros t. rewrite (three_eq _ _ 1 true _ _ _ (K1 t 1 0 eq_refl) eq_refl eq_refl eq_refl).
    rewrite V12, V13. destruct (qpow_le1 e t E0 E1) as (P0 & P1).
    assert (S0 : (0 < s)%Qc) by reflexivity. assert (CS : (c + s < - m3)%Qc) by reflexivity.
    assert (B0 : (0 <= s * e ^ t)%Qc) by (apply qmul_nonneg; qlra).
    assert (B1 : (0 <= s * (1 - e ^ t))%Qc) by (apply qmul_nonneg; qlra).
    rewrite three_min; unfold sgn; qlra. }
  assert (M10 : forall t, qat (M t) 1 0 = (- (c + s) * (1 - e ^ (t + 1)) + s * (1 - e) * qn (t + 1) * e ^ t)%Qc).
  { intro t. rewrite FM by lia. rewrite (filtered_same flag alpha _ (fun i => - (c + s) + s * e ^ i)%Qc) by auto.
    apply filtered_geo. }
  assert (Z : forall t c x, c < 2 -> x < 5 -> (forall i, qat (D i) c x = 0%Qc) -> qat (M t) c x = 0%Qc).
  { intros t d x Hd Hx H. rewrite FM by auto. apply filtered_none; auto. }
  destruct ext as [|x0 [|x1 [|x2 [|x3 [|x4 [|]]]]]]; try discriminate L.
  pose proof (HX 0 ltac:(lia)) as X0. pose proof (HX 1 ltac:(lia)) as X1. pose proof (HX 2 ltac:(lia)) as X2.
  pose proof (HX 3 ltac:(lia)) as X3. pose proof (HX 4 ltac:(lia)) as X4. clear HX. cbn [nth] in *. subst x0 x1 x2 x3 x4.
  destruct n as [|n].
  { cbn. repeat f_equal; ring. }
  cbn [Nat.eqb seq map]. rewrite Nat.sub_succ, Nat.sub_0_r.
  assert (O : forall t c x tys cx, nth_error dk_conx c = Some cx -> nth_error dk_types c = Some tys -> x < 5 -> ~ In x cx ->
     qat (D t) c x = 0%Qc).
  { intros t d x tys cx Hc Ht. destruct (HT t) as (A & _). apply (A d cx tys Hc Ht). }
  assert (D00 : forall t, qat (D t) 0 0 = 0%Qc) by (intro; eapply (O _ 0); [reflexivity..|lia|cbn; lia]).
  assert (D01 : forall t, qat (D t) 0 1 = 0%Qc) by (intro; eapply (O _ 0); [reflexivity..|lia|cbn; lia]).
  assert (D11 : forall t, qat (D t) 1 1 = 0%Qc) by (intro; eapply (O _ 1); [reflexivity..|lia|cbn; lia]).
  assert (D14 : forall t, qat (D t) 1 4 = 0%Qc) by (intro; eapply (O _ 1); [reflexivity..|lia|cbn; lia]).
  rewrite !qsum_cons. change (qsum []) with 0%Qc.
  rewrite M10, M02, M12, M03, M13, M04, (Z n 0 0), (Z n 0 1), (Z n 1 1), (Z n 1 4) by (auto; lia).
  rewrite Nat.add_1_r. repeat (apply f_equal2; [ring|]). reflexivity.
Qed.

(** Deciding by the sign of metric plus output gives, after every number of iterations, an assignment
    that satisfies both clauses, and every other assignment (satisfying them or not) costs more. *)
Lemma pow_diff e n : (0 <= e -> e <= 1 -> (1 - e) * qn (S n) * e ^ n <= 1 - e ^ S n)%Qc.
Proof.
  intros H0 H1. induction n as [|n IH]; [cbn; qlra|].
  change (qn (S (S n))) with (qn (S n) + 1)%Qc. cbn [Qcpower] in *.
  destruct (qpow_le1 e n H0 H1) as (P0 & P1).
  pose proof (Qcmult_le_compat_r _ _ e IH H0) as X.
  pose proof (qmul_nonneg (1 - e) (1 - e * e ^ n)) as Y.
  assert (Z : (e * e ^ n <= 1)%Qc) by (destruct (qpow_le1 e (S n) H0 H1); auto).
  specialize (Y ltac:(qlra) ltac:(qlra)).
  replace ((1 - e) * (qn (S n) + 1) * (e * e ^ n))%Qc with
    ((1 - e) * qn (S n) * e ^ n * e + (e * e ^ n - e * (e * e ^ n)))%Qc by ring.
  replace ((1 - e * e ^ n) * e)%Qc with (e - e * (e * e ^ n))%Qc in X by ring.
  replace ((1 - e) * (1 - e * e ^ n))%Qc with (1 - e - e * e ^ n + e * (e * e ^ n))%Qc in Y by ring.
  generalize dependent ((1 - e) * qn (S n) * e ^ n * e)%Qc. generalize dependent (e * (e * e ^ n))%Qc. intros; qlra.
Qed.
Lemma qltb_t a b : (a < b)%Qc -> qltb a b = true.
Proof. destruct (qltb_spec a b); auto; intro; exfalso; qlra. Qed.
Lemma qltb_f a b : (b <= a)%Qc -> qltb a b = false.
Proof. destruct (qltb_spec a b); auto; intro; exfalso; qlra. Qed.
Theorem C88_ksat_decision : forall n flag alpha, (0 <= alpha)%Qc -> (alpha <= 1)%Qc ->
  exists ext, demo_ksat n flag (Fin alpha) = Some (map Fin ext) /\ length ext = 5 /\
    let x := map (fun p => qltb (fst p + snd p) 0) (combine dk_metrics ext) in
    (forall c cx tys, nth_error dk_conx c = Some cx -> nth_error dk_types c = Some tys ->
       clause_ok (signs tys) (map (fun v => nth v x false) cx)) /\
    (forall y, length y = 5 -> y <> x -> (total dk_metrics x < total dk_metrics y)%Qc).
Proof.
  intros n flag alpha H0 H1. rewrite (C88_ksat n flag alpha H0 H1). eexists. split; [reflexivity|]. split; [reflexivity|].
  set (e := if flag then alpha else 0%Qc).
  assert (E0 : (0 <= e)%Qc) by (unfold e; destruct flag; qlra). assert (E1 : (e <= 1)%Qc) by (unfold e; destruct flag; qlra).
  cbn zeta.
  match goal with |- context [combine dk_metrics ?l] => set (ext := l) end.
  assert (X : map (fun p => qltb (fst p + snd p) 0) (combine dk_metrics ext) = [true; true; false; true; true]).
  { unfold ext. cbn [dk_metrics map combine fst snd].
    destruct (qpow_le1 e n E0 E1) as (P0 & P1). set (s := dec8 215600797). set (c := dec8 437984813).
    assert (S0 : (0 < s)%Qc) by reflexivity. assert (C0 : (0 < c)%Qc) by reflexivity.
    rewrite (qltb_t (dec8 (-11790238) + 0)) by reflexivity.
    rewrite (qltb_t (dec8 (-713066003) + 0)) by reflexivity.
    rewrite (qltb_t (dec8 (-215600797) + 0)) by reflexivity.
    rewrite (qltb_f (c + _)).
    2:{ pose proof (qmul_nonneg s (1 - e ^ n)) as Y. specialize (Y ltac:(qlra) ltac:(qlra)). qlra. }
    rewrite (qltb_t (dec8 (-266808398) + _)); [reflexivity|].
    assert (M0 : (dec8 (-266808398) < 0)%Qc) by reflexivity.
    assert (Q : ((1 - e) * qn n * e ^ (n - 1) <= 1 - e ^ n)%Qc).
    { destruct n as [|n]; [cbn; qlra|]. rewrite Nat.sub_succ, Nat.sub_0_r. apply pow_diff; auto. }
    pose proof (Qcmult_le_compat_r _ _ s Q ltac:(qlra)) as Q'.
    pose proof (qmul_nonneg c (1 - e ^ n)) as Y. specialize (Y ltac:(qlra) ltac:(qlra)).
    replace (- ((c + s) * (1 - e ^ n)) + s * (1 - e) * qn n * e ^ (n - 1))%Qc with
      ((1 - e) * qn n * e ^ (n - 1) * s - (1 - e ^ n) * s - c * (1 - e ^ n))%Qc by ring.
    generalize dependent ((1 - e) * qn n * e ^ (n - 1) * s)%Qc. generalize dependent ((1 - e ^ n) * s)%Qc.
    generalize dependent (c * (1 - e ^ n))%Qc. generalize dependent (dec8 (-266808398)). intros; qlra. }
  rewrite X. clear X. split.
  - intros [|[|d]] cx tys A B; cbn in A, B; [injection A as <-; injection B as <-..|destruct d; discriminate A].
    + exists 1, false, false. auto.
    + exists 1, true, true. auto.
  - intros [|[] [|[] [|[] [|[] [|[] [|]]]]]] L N; try discriminate L; try reflexivity. exfalso; apply N; reflexivity.
Qed.

(** three iterations with the filtering parameter of the program *)
Example C88_ksat_example :
  option_map (map view) (demo_ksat 3 true (Fin (Q2Qc (1 # 2)))) =
  Some [VFin (-3928296879 # 800000000); VFin 0; VFin (1509205579 # 800000000); VFin 0; VFin 0].
Proof. vm_compute. reflexivity. Qed.

(** ** KC-MWM *)

Lemma for_up_fix {S} (f : S -> nat -> option S) n k s0 s :
  for_up 0 n s0 f = Some s -> (forall i, f s i = Some s) -> for_up 0 (n + k) s0 f = Some s.
Proof.
  unfold for_up. rewrite !Nat.sub_0_r, seq_app, foldM_app. intros -> F. cbn [bind].
  generalize (0 + n). induction k as [|k IH]; intro a; cbn [seq foldM]; auto. rewrite F. cbn [bind]. apply IH.
Qed.

Lemma view_inj a b : view a = view b -> a = b.
Proof. destruct a, b; cbn; try discriminate; auto. intro H. injection H as H. f_equal. apply Qc_is_canon. rewrite H. reflexivity. Qed.
Lemma view_list_inj l l' : map view l = map view l' -> l = l'.
Proof.
  revert l'. induction l as [|a l IH]; intros [|b l']; cbn; try discriminate; auto. intro H. injection H as A B.
  f_equal; auto using view_inj.
Qed.
Lemma view_opt_inj l l' : option_map (map view) l = option_map (map view) l' -> l = l'.
Proof.
  destruct l as [l|], l' as [l'|]; cbn; try discriminate; auto. intro H. injection H as H. f_equal.
  apply view_list_inj, H.
Qed.
(** the numbers of the last loop *)
Definition print_kc (ext : list num) : option (list num) :=
  for_up 0 5 [] (fun out i => x <- get ext i ;; r <- get (map Fin dm_reward_team) i ;; Some (out ++ [nadd x r])).
(** C88 (KC-MWM).  Without filtering, the messages settle within ten iterations: from then on the
    program prints the same five numbers.  The teams with a negative number are those of the one
    cheapest selection, cheaper than any other by at least 1. *)
Theorem C88_kc : forall n alpha, 10 <= n ->
  demo_kc n false alpha = Some (map zn [-1; 1; 3; 46; -51]%Z) /\
  best_by 5 2 2 dm_weights dm_max_state dm_reward_project dm_reward_team [(0, 4); (1, 0)] 1%Qc.
Proof.
  intros n alpha Hn. split.
  - replace n with (10 + (n - 10)) by lia. generalize (n - 10). clear. intro k.
    unfold demo_kc, wrapper_kc_mwm.
    set (inp := kc_process_inputs _ _ _ _ _ _ _ _ _ _ _). vm_compute in inp. subst inp. cbn [bind].
    unfold kc_iterate. cbn [kc_team2knapsack].
    match goal with |- context [for_up 0 (10 + k) ?a ?f] => set (s0 := a); set (step := f) end.
    assert (E : exists s, for_up 0 10 s0 step = Some s /\ (forall i, step s i = Some s) /\
       option_map (map view) (ext <- extrinsic_output_team (kc_extr s) (kc_oric2team s) (repeat n0 5) ;; print_kc ext) =
       option_map (map view) (Some (map zn [-1; 1; 3; 46; -51]%Z))).
    { eexists. split; [vm_compute; reflexivity|]. split; [intro i; vm_compute; reflexivity|vm_compute; reflexivity]. }
    destruct E as (s & E1 & E2 & E3). rewrite (for_up_fix step 10 k s0 s E1 E2). cbn [bind].
    apply view_opt_inj in E3. rewrite <- E3. destruct (extrinsic_output_team _ _ _); reflexivity.
  - apply (best_check_ok 5 2 2 dm_weights dm_max_state dm_reward_project dm_reward_team [Some 4; Some 0]).
    + cbn. tauto.
    + reflexivity.
    + vm_compute. reflexivity.
Qed.

(** With filtering (as in the program), for every number of iterations and every parameter, no access
    out of range and five finite numbers. *)
Theorem C88_kc_safe : forall n flag alpha, exists out,
  demo_kc n flag (Fin alpha) = Some (map Fin out) /\ length out = 5.
Proof.
  intros n flag alpha.
  destruct (C14_kc_mwm_safe n 5 2 2 dm_weights dm_reward_project dm_reward_team dm_max_state flag alpha) as (ext & intr & E & L & _).
  1-2: split; [reflexivity|repeat constructor].
  1-2: reflexivity.
  { intros [|[|d]] ws A; cbn in A; [injection A as <-..|destruct d; discriminate A].
    - exists 0, 2. split; [reflexivity|discriminate].
    - exists 1, 1. split; [reflexivity|discriminate]. }
  { intros [|[|d]] ws cap A B; cbn in A, B; [injection A as <-; injection B as <-..|destruct d; discriminate A]; repeat constructor. }
  { intros; lia. }
  unfold wrapper_kc_mwm in E.
  replace (kc_process_inputs _ _ _ _ _ _ _ _ _ _ _) with
    (kc_process_inputs 5 2 2 (list_max dm_sizes) (map Fin dm_reward_team) (map Fin dm_transition) (concat dm_weights)
       dm_sizes dm_nonzero (concat (inj dm_reward_project)) dm_max_state) in E by reflexivity.
  change (map (@length nat) (py_nonzero dm_weights)) with dm_sizes in E.
  unfold demo_kc, wrapper_kc_mwm. rewrite E. cbn [bind].
  destruct ext as [|x0 [|x1 [|x2 [|x3 [|x4 [|]]]]]]; try discriminate L.
  exists [x0 + zq (-22); x1 + zq (-31); x2 + zq (-68); x3 + zq (-39); x4 + zq (-84)]%Qc. split; reflexivity.
Qed.

(** two of the 400 iterations with the constants of the program *)
Example C88_kc_example :
  option_map (map view) (demo_kc 2 true (Fin (Q2Qc (9 # 10)))) =
  Some [VFin (-201 # 50); VFin (-303 # 100); VFin (-147 # 100); VFin (3877 # 100); VFin (-4787 # 100)].
Proof. vm_compute. reflexivity. Qed.

(** ** TSP *)

Definition view_arrays (p : list num * list (list num)) := (map view (fst p), map (map view) (snd p)).
Lemma view_arrays_inj o o' : option_map view_arrays o = option_map view_arrays o' -> o = o'.
Proof.
  destruct o as [(a & b)|], o' as [(a' & b')|]; cbn; try discriminate; auto. unfold view_arrays. cbn [fst snd]. intro H.
  injection H as A B. apply view_list_inj in A as ->. do 2 f_equal. revert b' B.
  induction b as [|r b IH]; intros [|r' b'] H; try discriminate; auto. cbn [map] in H. injection H as A B.
  f_equal; auto using view_list_inj.
Qed.
(** C88 (TSP).  The edge list, edge costs and degree costs written into the program are those the
    Python front end builds from the cost matrix of the program. *)
Theorem C88_tsp_front_end : forall fuel iters flag alpha ord,
  demo_tsp fuel iters flag alpha ord =
  (p <- py_call {| q_iters := iters; q_aug := true; q_reset := false; q_filt := flag; q_alpha := alpha;
                   q_thr := Fin (Q2Qc (-1 # 10000)); q_max_count := 50; q_max_augm := 50 |} 5 (inj dt_matrix) ord ;;
   tsp_solve fuel p 50).
Proof.
  intros. unfold demo_tsp, py_call.
  replace (py_edges (inj dt_matrix)) with dt_edges by (vm_compute; reflexivity).
  assert (E : py_tsp_arrays 5 (inj dt_matrix) dt_edges = Some (map Fin dt_costs, inj dt_degree)).
  { apply view_arrays_inj. vm_compute. reflexivity. }
  rewrite E. clear E.
  cbn [bind q_iters q_aug q_reset q_filt q_alpha q_thr q_max_count]. change (py_num_edges 5) with 20.
  destruct (tsp_process_inputs _ _ _ _ _ _ _); reflexivity.
Qed.
(** For every number of iterations and rounds, every filtering parameter and every order of the hash
    map: no access out of range, and all numbers of the final state are finite, so that the check for
    NaN does not end the program. *)
Theorem C88_tsp_safe : forall fuel iters flag alpha ord, (forall l, Permutation (ord l) l) ->
  exists out, demo_tsp fuel iters flag (Fin alpha) ord = Some out /\
    match out with Returned st | Running st => all_finite st | Exited => True end.
Proof.
  intros fuel iters flag alpha ord Ho. rewrite C88_tsp_front_end.
  match goal with |- context [py_call ?o _ _ _] => destruct (C13_tsp_safe fuel o 5 dt_matrix ord) as (p & out & A & B & _ & C) end; auto.
  { split; [split; [reflexivity|repeat constructor]|]. split.
    - intros u Hu. do 5 (destruct u as [|u]; [apply Qc_is_canon; reflexivity|]). lia.
    - intros u v Hu Hv N. do 5 (destruct u as [|u]; [do 5 (destruct v as [|v]; [try congruence; intro H; apply (f_equal this) in H; vm_compute in H; discriminate H|]); lia|]). lia. }
  { exists alpha. reflexivity. }
  exists out. rewrite A. cbn [bind]. split; [exact B|]. destruct out; auto.
Qed.

(** With the constants of the program but 16 instead of 200 iterations: the program returns the tour
    0-2-3-1-4 (the identity as order of the hash map).  Without filtering and with 4 iterations it
    selects no edge and ends the process. *)
Example C88_tsp_example :
  (match demo_tsp 3 16 true (Fin (Q2Qc (1 # 2))) (fun l => l) with
   | Some (Returned st) => Some (r_selected (t_sol st), a_tour (t_an st), view (r_cost (t_sol st)))
   | _ => None
   end = Some ([(0, 2); (1, 4); (2, 3); (3, 1); (4, 0)], [2; 3; 1; 4; 0; 2], view (Fin (dec8 142347320089)))) /\
  demo_tsp 3 4 false (Fin (Q2Qc (1 # 2))) (fun l => l) = Some Exited.
Proof. split; vm_compute; reflexivity. Qed.

Print Assumptions C88_ksat.
Print Assumptions C88_ksat_decision.
Print Assumptions C88_kc.
Print Assumptions C88_kc_safe.
Print Assumptions C88_tsp_front_end.
Print Assumptions C88_tsp_safe.
