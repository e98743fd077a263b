(** * Property C62: the K-SAT solver respects the symmetries of formulas. *)
From Coq Require Import Permutation.
From Verif Require Import Num NumFacts Arr ArrFacts Spec SpecRun SpecForest MinSum MinSumFacts P_Ksat P_Tsp_Sched P_Tsp_Order.
From Verif Require Import M_Tsp_Run M_Ksat_Py P_Ksat_Py P_Ksat_Gen P_PyRef_Ksat P_Forest P_Forest_Limit P_Ksat_Tree P_Ksat_Limit P_Ksat_Opt.
From Verif Require Import M_InOut M_Runs P_Runs P_Schedule T_Schedule T_Ksat_Py T_PyRef_Run T_Ksat_Tree P_Ksat_Sym.
Local Open Scope nat_scope.

(** Clause [c] contains variable [x] with type [t] (1 or -1), at some position. *)
Definition literal (conx : list (list nat)) (types : list (list Z)) (c x : nat) (t : Z) : Prop :=
  exists j, nth_error (nth c conx []) j = Some x /\ nth_error (nth c types []) j = Some t.

(** A formula as the C++ solver takes it: clauses of [k] distinct variables, the list of used
    variables and, for each variable, the list of its clauses. *)
Definition formula_ok (nv nc k : nat) (used : list nat) (conx : list (list nat)) (types : list (list Z))
    (varconx : list (list nat)) : Prop :=
  shape nc k conx /\ shape nc k types /\
  (forall c cx tys, nth_error conx c = Some cx -> nth_error types c = Some tys -> clause_wf nv k cx tys) /\
  length varconx = nv /\ Forall (fun x => x < nv) used /\
  (forall x l, nth_error varconx x = Some l -> NoDup l /\ forall c, In c l <-> In x (nth c conx [])) /\
  (forall j, j < nv -> ~ In j used -> nth j varconx [] = []).

Lemma ok_row nv nc k used conx types varconx c : formula_ok nv nc k used conx types varconx -> c < nc ->
  clause_wf nv k (nth c conx []) (nth c types []).
Proof.
  intros ((Lc & _) & (Lt & _) & Wf & _) Hc. apply (Wf c); apply nth_error_nth'; lia.
Qed.
Lemma ok_lit nv nc k used conx types varconx c x : formula_ok nv nc k used conx types varconx -> c < nc ->
  In x (nth c conx []) <-> exists t, literal conx types c x t.
Proof.
  intros F Hc. destruct (ok_row _ _ _ _ _ _ _ _ F Hc) as (L1 & L2 & _). split.
  - intros I. apply In_nth_error in I as (j & Hj). destruct (nth_error (nth c types []) j) as [t|] eqn:Et.
    + exists t, j. auto.
    + apply nth_error_None in Et. assert (j < length (nth c conx [])) by (apply nth_error_Some; congruence). lia.
  - intros (t & j & Hj & _). eapply nth_error_In; eauto.
Qed.
Lemma ok_bound nv nc k used conx types varconx c x : formula_ok nv nc k used conx types varconx ->
  In x (nth c conx []) -> c < nc /\ x < nv.
Proof.
  intros F I. destruct (Nat.lt_ge_cases c nc) as [Hc|G].
  - destruct (ok_row _ _ _ _ _ _ _ _ F Hc) as (_ & _ & _ & B & _). rewrite Forall_forall in B. auto.
  - destruct F as ((Lc & _) & _). rewrite nth_overflow in I by lia. destruct I.
Qed.
Lemma clause_literal conx types c a :
  clause_at conx types c a <-> exists x t, literal conx types c x t /\ a x = (t =? 1)%Z.
Proof.
  unfold clause_at, clause_ok, signs, literal. split.
  - intros (j & s & b & J1 & J2 & E). rewrite nth_error_map in J1, J2.
    destruct (nth_error (nth c types []) j) as [t|] eqn:Et; [|discriminate].
    destruct (nth_error (nth c conx []) j) as [x|] eqn:Ex; [|discriminate]. cbn in J1, J2.
    exists x, t. split; [exists j; auto|congruence].
  - intros (x & t & (j & J1 & J2) & E). exists j, (t =? 1)%Z, (a x). rewrite !nth_error_map, J1, J2. auto.
Qed.

(** C62.  The second formula is the first one with its variables renamed by [fv] and its clauses
    by [fc], with the literals of the variables in [fl] negated; its costs and initial messages are
    those of the first one, scaled by [s > 0] and negated at the variables in [fl].  The order of
    the literals inside the clauses, the lists of used variables and the order of the clauses in the
    lists of the variables are arbitrary on both sides.  Then for every number of iterations, with
    or without filtering and for every filter factor, the outputs are those of the first formula,
    renamed, scaled and negated. *)
Theorem C62_symmetry :
  forall (nv nc k iters : nat) (used used' : list nat) (metrics metrics' : list Qc) (conx conx' : list (list nat))
         (types types' : list (list Z)) (V0 V0' : list (list Qc)) (varconx varconx' : list (list nat))
         (flag : bool) (alpha s : Qc) (fv fc : nat -> nat) (fl : nat -> bool),
    2 <= k -> (0 < s)%Qc ->
    formula_ok nv nc k used conx types varconx -> formula_ok nv nc k used' conx' types' varconx' ->
    length metrics = nv -> length metrics' = nv -> shape nc nv V0 -> shape nc nv V0' ->
    Permutation (map fv (seq 0 nv)) (seq 0 nv) -> Permutation (map fc (seq 0 nc)) (seq 0 nc) ->
    (forall c x t, c < nc -> x < nv ->
       literal conx' types' c x t <-> literal conx types (fc c) (fv x) (if fl x then - t else t)%Z) ->
    (forall c x t, c < nc -> literal conx' types' c x t ->
       nth x metrics' 0%Qc = ((if fl x then - s else s) * nth (fv x) metrics 0)%Qc /\
       qat V0' c x = ((if fl x then - s else s) * qat V0 (fc c) (fv x))%Qc) ->
    exists ext ext' : list Qc,
      wrapper_ksat iters nv nc (length used) (Fin alpha) flag used (concat varconx)
        (map (@length nat) varconx) (concat conx) (concat types) (map Fin metrics) (concat (inj V0)) k
        = Some (map Fin ext) /\
      wrapper_ksat iters nv nc (length used') (Fin alpha) flag used' (concat varconx')
        (map (@length nat) varconx') (concat conx') (concat types') (map Fin metrics') (concat (inj V0')) k
        = Some (map Fin ext') /\
      length ext = nv /\ length ext' = nv /\
      forall x, x < nv -> nth x ext' 0%Qc = ((if fl x then - s else s) * nth (fv x) ext 0)%Qc.
Proof.
  intros nv nc k iters used used' metrics metrics' conx conx' types types' V0 V0' varconx varconx' flag alpha s fv fc fl
    Hk Hs F F' Lm Lm' SV SV' Pv Pc HL HV.
  pose proof (fun c x => ok_bound _ _ _ _ _ _ _ c x F) as B. pose proof (fun c x => ok_bound _ _ _ _ _ _ _ c x F') as B'.
  pose proof (fun c x => ok_lit _ _ _ _ _ _ _ c x F) as IL. pose proof (fun c x => ok_lit _ _ _ _ _ _ _ c x F') as IL'.
  pose proof (fun c => ok_row _ _ _ _ _ _ _ c F) as W. pose proof (fun c => ok_row _ _ _ _ _ _ _ c F') as W'.
  destruct F as (F1 & F2 & F3 & F4 & F5 & F6 & F7). destruct F' as (G1 & G2 & G3 & G4 & G5 & G6 & G7).
  destruct (run_fsched iters nv nc k used metrics conx types V0 varconx (seq 0 nc) flag alpha (fun u => nth u metrics 0%Qc))
    as (ext & V & R & D & E & Le & Sd & E0 & HX); auto.
  destruct (run_fsched iters nv nc k used' metrics' conx' types' V0' varconx' (seq 0 nc) flag alpha (fun u => nth u metrics' 0%Qc))
    as (ext' & V' & R' & D' & E' & Le' & Sd' & E0' & HX'); auto.
  exists ext, ext'. split; [exact E|split; [exact E'|split; [exact Le|split; [exact Le'|]]]].
  pose proof (perm_lt fv nv Pv) as Lv. pose proof (perm_lt fc nc Pc) as Lc.
  assert (Mem : forall c x, c < nc -> x < nv -> In x (nth c conx' []) <-> In (fv x) (nth (fc c) conx [])).
  { intros c x Hc Hx. rewrite IL', IL by auto. split; intros (t & T).
    - eexists. apply HL; eauto.
    - exists (if fl x then - t else t)%Z. apply HL; auto. destruct (fl x); [rewrite Z.opp_involutive|]; exact T. }
  assert (KD : forall t c x, c < nc -> x < nv -> D' t c x = (sgn fl s x * D t (fc c) (fv x))%Qc).
  { eapply (fsched_sym nv nc fv fl fc s) with (8 := Sd) (9 := Sd'); eauto.
    - intros c x I. apply B in I. tauto.
    - intros c x I. apply B' in I. tauto.
    - intros c a a' Hc C. rewrite !clause_literal.
      assert (PM : forall x t, literal conx' types' c x t -> t = 1%Z \/ t = (-1)%Z).
      { intros x t (j & _ & J). destruct (W' c Hc) as (_ & _ & _ & _ & Q). rewrite Forall_forall in Q. apply Q.
        eapply nth_error_In; eauto. }
      assert (BX : forall x t, literal conx' types' c x t -> x < nv).
      { intros x t L. apply (B' c x). apply IL'; eauto. }
      split.
      + intros (x & t & L & Ea). pose proof (BX x t L) as Hx. exists (fv x), (if fl x then - t else t)%Z.
        split; [apply HL; auto|]. rewrite (C x Hx) in Ea.
        destruct (PM x t L) as [-> | ->]; destruct (fl x), (a (fv x)); cbn in *; congruence.
      + intros (y & t & L & Ea). assert (Hy : y < nv) by (apply (B (fc c) y); apply IL; eauto).
        destruct (perm_onto fv nv Pv y Hy) as (x & Hx & <-). exists x, (if fl x then - t else t)%Z.
        assert (L' : literal conx' types' c x (if fl x then - t else t)%Z).
        { apply HL; auto. destruct (fl x); [rewrite Z.opp_involutive|]; exact L. }
        split; [exact L'|]. rewrite (C x Hx), Ea.
        destruct (fl x); destruct (PM x _ L') as [Et|Et]; [| | |];
          (assert (t = 1%Z \/ t = (-1)%Z) as [-> | ->] by lia); cbn in *; congruence.
    - intros c x Hc I. apply IL' in I as (t & L); auto. apply (HV c x t); auto.
    - intros c x Hc I. apply IL' in I as (t & L); auto. rewrite E0, E0'. apply (HV c x t); auto. }
  intros x Hx. rewrite HX', HX by auto. fold (sgn fl s x). destruct (iters =? 0); [ring|].
  rewrite <- (qsum_perm _ _ (Permutation_map (fun c => D (iters - 1) c (fv x)) Pc)), map_map, <- qsum_scale.
  f_equal. apply map_ext_in. intros c Hc. apply in_seq in Hc. apply KD; lia.
Qed.

(** Decisions (threshold 0): a decided variable of the second formula takes the value of the
    corresponding variable of the first one, negated where the literals are. *)
Definition c62_decisions (decided : Qc -> Prop) : Prop :=
  forall (nv nc k iters : nat) (used used' : list nat) (metrics metrics' : list Qc) (conx conx' : list (list nat))
         (types types' : list (list Z)) (V0 V0' : list (list Qc)) (varconx varconx' : list (list nat))
         (flag : bool) (alpha s : Qc) (fv fc : nat -> nat) (fl : nat -> bool) (ext ext' : list Qc),
    2 <= k -> (0 < s)%Qc ->
    formula_ok nv nc k used conx types varconx -> formula_ok nv nc k used' conx' types' varconx' ->
    length metrics = nv -> length metrics' = nv -> shape nc nv V0 -> shape nc nv V0' ->
    Permutation (map fv (seq 0 nv)) (seq 0 nv) -> Permutation (map fc (seq 0 nc)) (seq 0 nc) ->
    (forall c x t, c < nc -> x < nv ->
       literal conx' types' c x t <-> literal conx types (fc c) (fv x) (if fl x then - t else t)%Z) ->
    (forall c x t, c < nc -> literal conx' types' c x t ->
       nth x metrics' 0%Qc = ((if fl x then - s else s) * nth (fv x) metrics 0)%Qc /\
       qat V0' c x = ((if fl x then - s else s) * qat V0 (fc c) (fv x))%Qc) ->
    wrapper_ksat iters nv nc (length used) (Fin alpha) flag used (concat varconx)
      (map (@length nat) varconx) (concat conx) (concat types) (map Fin metrics) (concat (inj V0)) k
      = Some (map Fin ext) ->
    wrapper_ksat iters nv nc (length used') (Fin alpha) flag used' (concat varconx')
      (map (@length nat) varconx') (concat conx') (concat types') (map Fin metrics') (concat (inj V0')) k
      = Some (map Fin ext') ->
    forall c x t b, c < nc -> literal conx' types' c x t ->
      decided (nth (fv x) ext 0 + nth (fv x) metrics 0)%Qc ->
      py_decide n0 (Fin (nth (fv x) ext 0 + nth (fv x) metrics 0)%Qc) = bit b ->
      py_decide n0 (Fin (nth x ext' 0 + nth x metrics' 0)%Qc) = bit (xorb (fl x) b).

Lemma decide_sign q : q <> 0%Qc -> py_decide n0 (Fin q) = bit (qltb q 0).
Proof.
  intros N. unfold py_decide, nleb. destruct (qltb q 0) eqn:E.
  - apply qltb_true in E. assert (X : nlt n0 (Fin q) = false) by (cbn; apply qltb_false; qlra).
    unfold ngt. rewrite X. cbn. reflexivity.
  - apply qltb_false in E. assert (X : nlt n0 (Fin q) = true).
    { cbn. apply qltb_true. destruct (Qcle_lt_or_eq _ _ E) as [|Z]; [auto|congruence]. }
    unfold ngt. rewrite X. cbn. reflexivity.
Qed.

Theorem C62_decisions : c62_decisions (fun q => q <> 0%Qc).
Proof.
  intros nv nc k iters used used' metrics metrics' conx conx' types types' V0 V0' varconx varconx' flag alpha s fv fc fl ext ext'
    Hk Hs F F' Lm Lm' SV SV' Pv Pc HL HV E E' c x t b Hc L Nz Hb.
  destruct (C62_symmetry nv nc k iters used used' metrics metrics' conx conx' types types' V0 V0' varconx varconx'
    flag alpha s fv fc fl) as (e & e' & X & X' & _ & _ & H); auto.
  rewrite E in X. rewrite E' in X'. assert (Y : map Fin ext = map Fin e) by congruence.
  assert (Y' : map Fin ext' = map Fin e') by congruence. apply fins_inj in Y, Y'. subst e e'.
  assert (Hx : x < nv) by (apply (ok_bound _ _ _ _ _ _ _ c x F'), (ok_lit _ _ _ _ _ _ _ c x F' Hc); eauto).
  destruct (HV c x t Hc L) as (M & _). rewrite (H x Hx), M.
  set (q := (nth (fv x) ext 0 + nth (fv x) metrics 0)%Qc) in *.
  replace ((if fl x then - s else s) * nth (fv x) ext 0 + (if fl x then - s else s) * nth (fv x) metrics 0)%Qc
    with ((if fl x then - s else s) * q)%Qc by (unfold q; ring).
  rewrite decide_sign in Hb by auto.
  assert (Nq : ((if fl x then - s else s) * q)%Qc <> 0%Qc).
  { intros Z. apply Qcmult_integral in Z as [Z|Z]; [|auto]. destruct (fl x); [|subst s; discriminate Hs].
    assert (s = 0%Qc) by (rewrite <- (Qcopp_involutive s), Z; reflexivity). subst s. discriminate Hs. }
  rewrite decide_sign by auto. f_equal.
  assert (Eb : b = qltb q 0) by (clear - Hb; destruct b, (qltb q 0); try reflexivity; discriminate Hb). rewrite Eb. clear - Hs Nz.
  assert (Cs : (q < 0)%Qc \/ (0 < q)%Qc).
  { destruct (Qclt_le_dec q 0) as [|G]; [left; auto|]. right. destruct (Qcle_lt_or_eq _ _ G); [auto|congruence]. }
  destruct Cs as [C|C].
  - pose proof (Qcmult_lt_compat_r _ _ s Hs C).
    rewrite (proj2 (qltb_true q 0) C). destruct (fl x); cbn [xorb negb].
    + apply qltb_false. qlra.
    + apply qltb_true. qlra.
  - pose proof (Qcmult_lt_compat_r _ _ s Hs C).
    rewrite (proj2 (qltb_false q 0)) by qlra. destruct (fl x); cbn [xorb negb].
    + apply qltb_true. qlra.
    + apply qltb_false. qlra.
Qed.

(** ** Examples *)

(** Two clauses sharing a variable, a renaming that moves every variable, the clauses swapped,
    variables 0 and 3 of the second formula negated, everything scaled by 3/2. *)
Definition sym_fv (x : nat) : nat := nth x [2; 0; 1; 4; 3] 0.
Definition sym_fc (c : nat) : nat := nth c [1; 0] 0.
Definition sym_fl (x : nat) : bool := (x =? 0) || (x =? 3).
Definition sym_conx := [[0; 1; 2]; [3; 2; 4]].
Definition sym_types := [[1; -1; 1]; [-1; -1; 1]]%Z.
Definition sym_vconx := [[0]; [0]; [0; 1]; [1]; [1]].
Definition sym_metrics := map zq [4; -2; 1; -3; 2]%Z.
Definition sym_V0 := map (map zq) [[7; 0; -9; 5; 5]; [1; 1; 1; 0; 8]]%Z.
Definition sym_conx' := [[3; 0; 4]; [2; 1; 0]].
Definition sym_types' := [[-1; 1; -1]; [-1; 1; -1]]%Z.
Definition sym_vconx' := [[1; 0]; [1]; [1]; [0]; [0]].
Definition sym_metrics' := map (fun z => zq z / zq 2)%Qc [-3; 12; -6; -6; -9]%Z.
Definition sym_V0' := map (map (fun z => zq z / zq 2)%Qc) [[-3; 8; 8; -24; 0]; [27; 21; 0; 8; 8]]%Z.

Lemma qc_eq (a b : Qc) : (this a ?= this b)%Q = Eq -> a = b.
Proof. intros H. apply Qc_is_canon. apply Qeq_alt, H. Qed.

Ltac sym_formula :=
  split; [split; [reflexivity|repeat constructor]|]; split; [split; [reflexivity|repeat constructor]|];
  split; [intros [|[|c]] cx tys H1 H2; cbn in H1, H2; try (destruct c; discriminate);
      injection H1 as <-; injection H2 as <-; unfold clause_wf, pm1;
      repeat split; auto; repeat constructor; auto; cbn; intuition discriminate|];
  split; [reflexivity|]; split; [repeat constructor|]; split;
  [intros x l Hx; split;
    [destruct x as [|[|[|[|[|x]]]]]; cbn in Hx; try (destruct x; discriminate Hx); injection Hx as <-;
       repeat constructor; cbn; intuition discriminate
    |intros c; destruct x as [|[|[|[|[|x]]]]]; cbn in Hx; try (destruct x; discriminate Hx); injection Hx as <-;
       destruct c as [|[|[|c]]]; cbn; lia]
  |intros [|[|[|[|[|j]]]]] Hj N; try (exfalso; apply N; cbn; tauto); lia].

Lemma sym_literals : forall c x t, c < 2 -> x < 5 ->
     literal sym_conx' sym_types' c x t <->
     literal sym_conx sym_types (sym_fc c) (sym_fv x) (if sym_fl x then - t else t)%Z.
Proof.
  intros c x t Hc Hx.
  assert (Cc : c = 0 \/ c = 1) by lia. assert (Cx : x = 0 \/ x = 1 \/ x = 2 \/ x = 3 \/ x = 4) by lia. clear Hc Hx.
  destruct Cc as [-> | ->], Cx as [-> |[-> |[-> |[-> | ->]]]]; cbn; split; intros (j & J1 & J2);
    (destruct j as [|[|[|j]]]; cbn in J1, J2; try discriminate; try (destruct j; discriminate)); injection J2 as J2;
    (assert (t = 1%Z \/ t = (-1)%Z) as [-> | ->] by lia); try discriminate J2;
    (exists 0; split; reflexivity) || (exists 1; split; reflexivity) || (exists 2; split; reflexivity).
Qed.

Example C62_example :
  formula_ok 5 2 3 [0; 1; 2; 3; 4] sym_conx sym_types sym_vconx /\
  formula_ok 5 2 3 [4; 2; 0; 1; 3] sym_conx' sym_types' sym_vconx' /\
  (forall iters flag alpha, exists ext ext',
    wrapper_ksat iters 5 2 5 (Fin alpha) flag [0; 1; 2; 3; 4] (concat sym_vconx) (map (@length nat) sym_vconx)
      (concat sym_conx) (concat sym_types) (map Fin sym_metrics) (concat (inj sym_V0)) 3 = Some (map Fin ext) /\
    wrapper_ksat iters 5 2 5 (Fin alpha) flag [4; 2; 0; 1; 3] (concat sym_vconx') (map (@length nat) sym_vconx')
      (concat sym_conx') (concat sym_types') (map Fin sym_metrics') (concat (inj sym_V0')) 3 = Some (map Fin ext') /\
    nth 1 ext' 0%Qc = (zq 3 / zq 2 * nth 0 ext 0)%Qc /\ nth 3 ext' 0%Qc = (- (zq 3 / zq 2) * nth 4 ext 0)%Qc) /\
  option_map (map view)
    (wrapper_ksat 4 5 2 5 (Fin (Q2Qc (1 # 2))) true [0; 1; 2; 3; 4] (concat sym_vconx) (map (@length nat) sym_vconx)
      (concat sym_conx) (concat sym_types) (map Fin sym_metrics) (concat (inj sym_V0)) 3)
    = Some [VFin (-13 # 8); VFin (15 # 8); VFin 0; VFin (1 # 4); VFin (-1 # 4)] /\
  option_map (map view)
    (wrapper_ksat 4 5 2 5 (Fin (Q2Qc (1 # 2))) true [4; 2; 0; 1; 3] (concat sym_vconx') (map (@length nat) sym_vconx')
      (concat sym_conx') (concat sym_types') (map Fin sym_metrics') (concat (inj sym_V0')) 3)
    = Some [VFin 0; VFin (-39 # 16); VFin (45 # 16); VFin (3 # 8); VFin (3 # 8)].
Proof.
  assert (F : formula_ok 5 2 3 [0; 1; 2; 3; 4] sym_conx sym_types sym_vconx) by sym_formula.
  assert (F' : formula_ok 5 2 3 [4; 2; 0; 1; 3] sym_conx' sym_types' sym_vconx') by sym_formula.
  split; [exact F|split; [exact F'|split; [|split; vm_compute; reflexivity]]].
  intros iters flag alpha.
  destruct (C62_symmetry 5 2 3 iters [0; 1; 2; 3; 4] [4; 2; 0; 1; 3] sym_metrics sym_metrics' sym_conx sym_conx' sym_types sym_types'
    sym_V0 sym_V0' sym_vconx sym_vconx' flag alpha (zq 3 / zq 2)%Qc sym_fv sym_fc sym_fl) as (ext & ext' & E & E' & _ & _ & H);
    auto; try reflexivity.
  - split; [reflexivity|repeat constructor].
  - split; [reflexivity|repeat constructor].
  - apply NoDup_Permutation; [cbn; repeat constructor; cbn; intuition discriminate|apply seq_NoDup|].
    intros y. cbn. intuition.
  - apply NoDup_Permutation; [cbn; repeat constructor; cbn; intuition discriminate|apply seq_NoDup|].
    intros y. cbn. intuition.
  - apply sym_literals.
  - intros c x t Hc (j & J1 & _). assert (Cc : c = 0 \/ c = 1) by lia. clear Hc.
    destruct Cc as [-> | ->]; destruct j as [|[|[|j]]]; cbn in J1; try (destruct j; discriminate J1);
      injection J1 as <-; split; apply qc_eq; vm_compute; reflexivity.
  - exists ext, ext'. split; [exact E|split; [exact E'|]]. split; [rewrite (H 1) by lia|rewrite (H 3) by lia]; reflexivity.
Qed.

(** A variable with total 0 is decided as true on both sides, so the restriction to non-zero totals
    is needed: one clause, all costs 0, the literal of variable 0 negated. *)
Theorem C62_decisions_refuted : ~ c62_decisions (fun _ => True).
Proof.
  intros H.
  specialize (H 2 1 2 1 [0; 1] [0; 1] [0; 0]%Qc [0; 0]%Qc [[0; 1]] [[0; 1]] [[1; 1]]%Z [[-1; 1]]%Z [[0; 0]]%Qc [[0; 0]]%Qc
    [[0]; [0]] [[0]; [0]] false 0%Qc 1%Qc (fun x => x) (fun x => x) (fun x => x =? 0) [0; 0]%Qc [0; 0]%Qc).
  assert (F : forall ty, pm1 ty -> formula_ok 2 1 2 [0; 1] [[0; 1]] [[ty; 1%Z]] [[0]; [0]]).
  { intros ty Hty. split; [split; [reflexivity|repeat constructor]|]. split; [split; [reflexivity|repeat constructor]|].
    split.
    { intros [|c] cx tys H1 H2; cbn in H1, H2; try (destruct c; discriminate); injection H1 as <-; injection H2 as <-.
      unfold clause_wf. split; [reflexivity|]. split; [reflexivity|]. split; [|split].
      - repeat constructor; cbn; intuition discriminate.
      - repeat constructor.
      - apply Forall_cons; [exact Hty|]. apply Forall_cons; [left; reflexivity|constructor]. }
    split; [reflexivity|]. split; [repeat constructor|]. split.
    - intros [|[|x]] l Hx; cbn in Hx; try (destruct x; discriminate); injection Hx as <-;
        (split; [repeat constructor; cbn; intuition|]); intros [|[|c]]; cbn; lia.
    - intros [|[|j]] Hj N; try (exfalso; apply N; cbn; tauto). lia. }
  specialize (H ltac:(lia) ltac:(reflexivity) (F 1%Z ltac:(left; reflexivity)) (F (-1)%Z ltac:(right; reflexivity))
    eq_refl eq_refl).
  assert (S : shape 1 2 [[0; 0]]%Qc) by (split; [reflexivity|repeat constructor]).
  specialize (H S S (Permutation_refl _) (Permutation_refl _)).
  assert (X : py_decide n0 (Fin (0 + 0)%Qc) = bit (xorb true true)).
  { apply (H) with (c := 0) (x := 0) (t := (-1)%Z); auto.
    - intros c x t Hc Hx. assert (c = 0) by lia. subst c. assert (Cx : x = 0 \/ x = 1) by lia. clear - Cx.
      destruct Cx as [-> | ->]; cbn; split; intros (j & J1 & J2); destruct j as [|[|j]]; cbn in J1, J2;
        try discriminate; try (destruct j; discriminate); injection J2 as J2.
      + exists 0. subst t. auto.
      + exists 0. assert (t = (-1)%Z) as -> by lia. auto.
      + exists 1. subst t. auto.
      + exists 1. subst t. auto.
    - intros c x t _ _. assert (Z : forall y, nth y [0; 0]%Qc 0%Qc = 0%Qc) by (intros [|[|[|y]]]; reflexivity).
      assert (Z2 : forall c y, qat [[0; 0]]%Qc c y = 0%Qc).
      { intros [|c'] y; unfold qat; cbn [nth]; [apply Z|]. destruct c', y; reflexivity. }
      rewrite !Z, !Z2. split; ring.
    - exists 0. auto. }
  vm_compute in X. discriminate X.
Qed.

Print Assumptions C62_symmetry.
Print Assumptions C62_decisions.
Print Assumptions C62_decisions_refuted.
