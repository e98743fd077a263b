(** * Properties C34 to C37, C41, C47 and C48: the Python front end of the K-SAT solver. *)
From Verif Require Import Num NumFacts Arr ArrFacts Spec M_Ksat P_Ksat M_InOut M_Runs T_Runs M_Tsp_Run M_Ksat_Py P_Ksat_Py P_Ksat_Gen.
From Coq Require Import Permutation Lqa.
Local Open Scope nat_scope.

(** C34.  The summary of any decision vector: a clause is listed as unsatisfied exactly when none
    of its literals is true, as satisfied exactly when one is; a used variable is active exactly
    when its decision is not 0. *)
Theorem C34_summary_exact :
  forall (nv : nat) (f : formula) (hd : list num),
    consistent nv f -> length hd = nv ->
    exists s, get_summary f hd = Some s /\
      (forall c, In c (v_unsat s) <-> c < y_nc f /\ ~ clause_true f hd c) /\
      (forall c, In c (v_sat s) <-> clause_true f hd c) /\
      NoDup (v_unsat s) /\
      (forall v, In v (v_active s) <-> In v (y_used f) /\ exists x, nth_error hd v = Some x /\ x <> n0) /\
      (forall v, In v (v_inactive s) <-> In v (y_used f) /\ nth_error hd v = Some n0).
Proof.
  intros nv f hd W L. destruct (get_summary_ok nv f hd W L) as (s & E & A & I & S & U).
  assert (R : forall v, In v (y_used f) -> nth_error hd v = Some (nth v hd n0)).
  { intros v Hv. apply nth_error_nth'. rewrite L. apply (proj1 (Forall_forall _ _) (c_range _ _ W)); auto. }
  exists s. split; [auto|]. split; [|split; [auto|split; [|split]]].
  - intros c. rewrite U. apply (unsat_iff nv); auto.
  - rewrite U. apply NoDup_filter, seq_NoDup.
  - intros v. rewrite A, filter_In, truthy_iff. split; intros [H1 H2]; (split; [auto|]).
    + eauto.
    + rewrite R in H2 by auto. destruct H2 as (x & H2 & H3). congruence.
  - intros v. rewrite I, filter_In, Bool.negb_true_iff, falsy_iff. split; intros [H1 H2]; (split; [auto|]).
    + rewrite R by auto. congruence.
    + rewrite R in H2 by auto. congruence.
Qed.
(** the flag after the hard decision *)
Theorem C34_flag_exact :
  forall (nv : nat) (f : formula) (thr : num) (intrinsic : list num),
    consistent nv f -> length intrinsic = nv ->
    exists o, hard_decision_analysis f thr intrinsic = Some o /\
      (k_flag o = true <-> forall c, c < y_nc f -> clause_true f (k_hd o) c) /\
      (k_flag o = true <-> v_unsat (k_sum o) = []).
Proof.
  intros nv f thr intr W L. unfold hard_decision_analysis.
  destruct (get_summary_ok nv f (map (py_decide thr) intr) W) as (s & E & _ & _ & _ & U).
  { rewrite map_length; auto. }
  rewrite E. cbn [bind]. eexists; split; [reflexivity|]. cbn [k_flag k_hd k_sum].
  assert (F : flag_of s = true <-> v_unsat s = []).
  { unfold flag_of. destruct (v_unsat s); cbn; split; congruence. }
  split; [|auto]. rewrite F, U. split.
  - intros H c Hc.
    destruct (existsb (is_true (map (py_decide thr) intr)) (lits f c)) eqn:B.
    + apply existsb_exists in B. destruct B as ((v & t) & B1 & B2). apply in_lits in B1.
      exists v, t. split; auto. apply (is_true_iff nv f _ c); auto. rewrite map_length; auto.
    + assert (K : In c (unsat f (map (py_decide thr) intr))).
      { apply filter_In. split; [apply in_seq; lia|]. rewrite B. auto. }
      rewrite H in K. destruct K.
  - intros H. destruct (unsat f (map (py_decide thr) intr)) as [|c l] eqn:B; auto. exfalso.
    assert (K : In c (unsat f (map (py_decide thr) intr))) by (rewrite B; left; auto).
    apply (unsat_iff nv) in K; [|auto|rewrite map_length; auto]. destruct K as [K1 K2]. apply K2, H, K1.
Qed.

(** C35.  Every outcome of the generator, for [requested] clauses of [k] literals over [nv]
    variables: it does not fail, every clause has [k] distinct variables, no two clauses have the
    same variables, clause view and variable view agree, the planted assignment makes every
    clause true, the used variables are those that occur, and there are at most [requested]
    clauses. *)
Definition planted (sol : list bool) : list num := map bit sol.
Theorem C35_generated_partial :
  forall (nv k requested : nat) (sol : list bool) (ord : list nat -> list nat) (draws : list draw),
    1 <= k -> length sol = nv -> length draws = requested ->
    Forall (valid_draw nv k) draws -> (forall l, Permutation l (ord l)) ->
    exists f, create_formula nv k sol ord draws = Some f /\
      consistent nv f /\ y_nc f <= requested /\
      length (y_conx f) = y_nc f /\
      Forall (fun r => length r = k /\ NoDup r) (y_conx f) /\
      (forall c1 c2 r1 r2, c1 <> c2 -> nth_error (y_conx f) c1 = Some r1 ->
         nth_error (y_conx f) c2 = Some r2 -> ~ (forall v, In v r1 <-> In v r2)) /\
      (forall c, c < y_nc f -> clause_true f (planted sol) c) /\
      NoDup (y_used f) /\ (forall v, In v (y_used f) <-> exists c t, in_clause f c v t).
Proof.
  intros nv k n sol ord draws Hk Ls Ld Hd P.
  destruct (create_formula_ok nv k sol ord draws Hk Ls Hd P) as (f & E & W & Q & N & L).
  exists f. split; [auto|split; [auto|split; [lia|split; [apply (c_conx _ _ W)|]]]].
  destruct Q as [Q1 Q2 Q3 Q4]. split; [auto|split; [auto|split; [|split; [auto|]]]].
  - intros c Hc. destruct (Q3 c Hc) as (v & b & A & B). exists v, (if b then 1%Z else (-1)%Z). split; auto.
    exists (bit b). split.
    + unfold planted. rewrite nth_error_map, A. auto.
    + destruct b; [left|right]; split; auto. cbn. intros H. discriminate.
  - intros v. split; auto. intros (c & t & H). apply (c_used _ _ W c v t H).
Qed.
(** the requested number is not always reached: two draws of the same variables leave one clause *)
Definition d2 (a i : nat) (s : bool) : draw := {| d_first := a; d_rest := [(i, s)] |}.
Theorem C35_count_refuted :
  exists (nv k requested : nat) (sol : list bool) (draws : list draw) (f : formula),
    1 <= k /\ length sol = nv /\ length draws = requested /\ Forall (valid_draw nv k) draws /\
    create_formula nv k sol (fun l => l) draws = Some f /\ y_nc f <> requested.
Proof.
  exists 3, 2, 2, [true; false; true], [d2 0 0 true; d2 1 0 false]. eexists.
  split; [lia|]. split; [reflexivity|]. split; [reflexivity|]. split.
  - repeat constructor; cbn; try lia; intros [|[|j]] i s H; try discriminate; cbn in H; injection H as <- <-; lia.
  - split; [vm_compute; reflexivity|]. cbn. lia.
Qed.

(** [k = 0] is outside the property: the generator still puts one variable in each clause *)
Example C35_zero :
  option_map y_conx (create_formula 2 0 [true; false] (fun l => l) [{| d_first := 1; d_rest := [] |}]) = Some [[1]].
Proof. reflexivity. Qed.

Example C35_example :
  let sol := [true; false; true; false] in
  let draws := [d2 0 2 false; d2 3 0 true; d2 1 1 true; d2 2 1 false] in
  Forall (valid_draw 4 2) draws /\
  create_formula 4 2 sol (fun l => l) draws =
    Some {| y_nc := 2; y_conx := [[0; 3]; [1; 2]]; y_types := [[1; -1]; [-1; 1]]%Z;
            y_used := [3; 0; 2; 1]; y_vconx := [[0]; [1]; [1]; [0]];
            y_vtypes := [[1]; [-1]; [1]; [-1]]%Z |}.
Proof.
  split; [|vm_compute; reflexivity].
  repeat constructor; cbn; try lia; intros [|[|j]] i s H; try discriminate; cbn in H; injection H as <- <-; lia.
Qed.

(** C37.  Post-processing succeeds from the result of any hard decision, for every iteration order
    of the two sets it loops over and every number of elements; the lists and the flag it leaves
    describe the decisions it leaves. *)
Theorem C37_report_matches_result :
  forall (nv : nat) (f : formula) (thr : num) (intrinsic : list num) (ord2 ord3 : list nat -> list nat) (pp : nat),
    consistent nv f -> length intrinsic = nv ->
    (forall l, Permutation l (ord2 l)) -> (forall l, Permutation l (ord3 l)) ->
    exists o o', hard_decision_analysis f thr intrinsic = Some o /\
      post_processing f ord2 ord3 pp o = Some o' /\ length (k_hd o') = nv /\
      (forall c, In c (v_unsat (k_sum o')) <-> c < y_nc f /\ ~ clause_true f (k_hd o') c) /\
      (forall c, In c (v_sat (k_sum o')) <-> clause_true f (k_hd o') c) /\
      (forall v, In v (v_active (k_sum o')) <-> In v (y_used f) /\ exists x, nth_error (k_hd o') v = Some x /\ x <> n0) /\
      (forall v, In v (v_inactive (k_sum o')) <-> In v (y_used f) /\ nth_error (k_hd o') v = Some n0) /\
      (k_flag o' = true <-> v_unsat (k_sum o') = []).
Proof.
  intros nv f thr intr ord2 ord3 pp W L P2 P3.
  assert (L' : length (map (py_decide thr) intr) = nv) by (rewrite map_length; auto).
  destruct (get_summary_ok nv f _ W L') as (s & E & _ & _ & _ & U).
  unfold hard_decision_analysis. rewrite E. cbn [bind]. eexists. 
  destruct (post_processing_ok nv f ord2 ord3 pp
    {| k_hd := map (py_decide thr) intr; k_sum := s; k_flag := flag_of s |} W P2 P3) as (o' & Eo & [Fl1 Fl2] & S & _).
  - split; [auto|]. cbn. apply flag_of_unsat. auto.
  - auto.
  - exists o'. split; [reflexivity|]. split; [auto|]. split; [auto|].
    destruct (C34_summary_exact nv f (k_hd o') W Fl1) as (s' & E' & A1 & A2 & _ & A3 & A4).
    assert (s' = k_sum o') by congruence. subst s'.
    do 4 (split; [assumption|]). rewrite Fl2. unfold no_unsat.
    rewrite (summary_unsat nv f (k_hd o') (k_sum o') W Fl1 S). destruct (unsat f (k_hd o')); cbn; split; intros; discriminate || auto.
Qed.

(** C36, witness: nine variables, all decided 0; post-processing with [pp] = 1 leaves three clauses
    unsatisfied where two were before.  A rejected flip for the first violated clause leaves its
    own count of violated clauses behind, and the flip for the second one is compared with it. *)
Definition bad_draws : list draw :=
  [{| d_first := 2; d_rest := [(0, true); (0, true)] |};
   {| d_first := 5; d_rest := [(3, true); (3, true)] |};
   {| d_first := 0; d_rest := [(0, true); (4, true)] |};
   {| d_first := 0; d_rest := [(0, true); (5, true)] |};
   {| d_first := 0; d_rest := [(0, true); (6, true)] |};
   {| d_first := 1; d_rest := [(5, true); (5, true)] |};
   {| d_first := 1; d_rest := [(0, true); (1, true)] |};
   {| d_first := 3; d_rest := [(3, true); (4, true)] |};
   {| d_first := 3; d_rest := [(3, true); (5, true)] |};
   {| d_first := 4; d_rest := [(5, true); (6, true)] |};
   {| d_first := 4; d_rest := [(3, true); (6, true)] |}].
Definition bad_sol : list bool := [false; false; true; false; false; true; false; false; false].
Lemma bad_draws_valid : Forall (valid_draw 9 3) bad_draws.
Proof.
  unfold bad_draws. repeat (apply Forall_cons; [|]); [..|apply Forall_nil];
    (split; [cbn; lia|split; [reflexivity|]]);
    intros [|[|j]] i s H; cbn in H; try (injection H as <- <-; lia); destruct j; discriminate.
Qed.
Definition counts (o o' : ks_obj) : nat * nat := (length (v_unsat (k_sum o)), length (v_unsat (k_sum o'))).
Definition bad_run (pp : nat) : option (nat * nat) :=
  f <- create_formula 9 3 bad_sol (fun l => l) bad_draws ;;
  o <- hard_decision_analysis f n0 (repeat n1 9) ;;
  o' <- post_processing f (fun l => l) (fun l => l) pp o ;;
  Some (counts o o').
Theorem C36_never_worse_refuted :
  exists (nv : nat) (f : formula) (thr : num) (intrinsic : list num) (pp : nat) (o o' : ks_obj),
    consistent nv f /\ length intrinsic = nv /\
    hard_decision_analysis f thr intrinsic = Some o /\
    post_processing f (fun l => l) (fun l => l) pp o = Some o' /\
    length (v_unsat (k_sum o)) < length (v_unsat (k_sum o')).
Proof.
  destruct (create_formula_ok 9 3 bad_sol (fun l => l) bad_draws) as (f & E & W & _);
    [lia|reflexivity|apply bad_draws_valid|intros; apply Permutation_refl|].
  assert (R : bad_run 1 = Some (2, 3)) by (vm_compute; reflexivity).
  unfold bad_run in R. rewrite E in R. cbn [bind] in R. clear E.
  destruct (hard_decision_analysis f n0 (repeat n1 9)) as [o|] eqn:E1; [|discriminate]. cbn [bind] in R.
  destruct (post_processing f (fun l => l) (fun l => l) 1 o) as [o'|] eqn:E2; [|discriminate]. cbn [bind] in R.
  unfold counts in R. injection R as R1 R2.
  exists 9, f, n0, (repeat n1 9), 1, o, o'. rewrite R1, R2. do 4 (split; [auto|]). auto.
Qed.
(** C36, part: if at most one clause is unsatisfied before, the number does not increase; in
    particular a satisfied formula stays satisfied.  Missing: two or more violated clauses, where
    the statement is false. *)
Theorem C36_never_worse_partial :
  forall (nv : nat) (f : formula) (thr : num) (intrinsic : list num) (ord2 ord3 : list nat -> list nat) (pp : nat)
         (o : ks_obj),
    consistent nv f -> length intrinsic = nv ->
    (forall l, Permutation l (ord2 l)) -> (forall l, Permutation l (ord3 l)) ->
    hard_decision_analysis f thr intrinsic = Some o ->
    length (v_unsat (k_sum o)) <= 1 ->
    exists o', post_processing f ord2 ord3 pp o = Some o' /\
      length (v_unsat (k_sum o')) <= length (v_unsat (k_sum o)).
Proof.
  intros nv f thr intr ord2 ord3 pp o W L P2 P3 Ho Le.
  assert (L' : length (map (py_decide thr) intr) = nv) by (rewrite map_length; auto).
  destruct (get_summary_ok nv f _ W L') as (s & E & _ & _ & _ & U).
  unfold hard_decision_analysis in Ho. rewrite E in Ho. cbn [bind] in Ho. injection Ho as <-.
  cbn [k_sum] in Le |- *.
  destruct (post_processing_ok nv f ord2 ord3 pp
    {| k_hd := map (py_decide thr) intr; k_sum := s; k_flag := flag_of s |} W P2 P3) as (o' & Eo & [Fl1 Fl2] & S & M).
  - split; [auto|]. cbn. apply flag_of_unsat. auto.
  - auto.
  - exists o'. split; [auto|]. rewrite (summary_unsat nv f (k_hd o') (k_sum o') W Fl1 S), U.
    cbn [k_hd] in M. rewrite U in Le. auto.
Qed.
(** C36, part: the first and the last of the three stages never increase the number, for any
    number of violated clauses. *)
Theorem C36_stages_partial :
  forall (nv : nat) (f : formula) (o : ks_obj) (ord : list nat -> list nat) (pp : nat) (combos : list (list nat)),
    consistent nv f -> length (k_hd o) = nv -> get_summary f (k_hd o) = Some (k_sum o) -> k_flag o = flag_of (k_sum o) ->
    (forall l, Permutation l (ord l)) -> Forall (Forall (fun v => v < nv)) combos ->
    exists o1 o3, phase1 f o = Some o1 /\ phase3 f ord pp combos o = Some o3 /\
      length (v_unsat (k_sum o1)) <= length (v_unsat (k_sum o)) /\
      length (v_unsat (k_sum o3)) <= length (v_unsat (k_sum o)).
Proof.
  intros nv f o ord pp combos W L S Fl P Fc.
  pose proof (summary_unsat nv f (k_hd o) (k_sum o) W L S) as U.
  assert (F : flagged nv f o) by (split; [auto|rewrite Fl; apply flag_of_unsat; auto]).
  destruct (phase1_ok nv f o _ W F U (le_n _)) as (o1 & E1 & [F1 _] & S1 & B1).
  destruct (phase3_ok nv f ord pp combos o W P F U Fc) as (o3 & E3 & [F3 _] & S3 & B3).
  exists o1, o3. split; [auto|split; [auto|]].
  rewrite (summary_unsat nv f (k_hd o1) (k_sum o1) W F1 S1), (summary_unsat nv f (k_hd o3) (k_sum o3) W F3 S3), U. auto.
Qed.

(** the example of C36 and C37: two violated clauses, both repaired (with [pp] = 2) *)
Definition sample : option formula :=
  create_formula 4 2 [true; false; true; false] (fun l => l) [d2 0 2 false; d2 3 0 true; d2 1 1 true; d2 2 1 false].
Example C37_example :
  exists f o o', sample = Some f /\ consistent 4 f /\
    hard_decision_analysis f n0 (map zn [1; -1; 1; -1]%Z) = Some o /\
    v_unsat (k_sum o) = [0; 1] /\ k_flag o = false /\
    post_processing f (fun l => l) (fun l => l) 2 o = Some o' /\
    v_unsat (k_sum o') = [] /\ k_flag o' = true /\ map view (k_hd o') = map view [n0; n0; n0; n0].
Proof.
  destruct (create_formula_ok 4 2 [true; false; true; false] (fun l => l)
    [d2 0 2 false; d2 3 0 true; d2 1 1 true; d2 2 1 false]) as (f & E & W & _);
    [lia|reflexivity| |intros; apply Permutation_refl|].
  { repeat constructor; cbn; try lia; intros [|[|j]] i s H; try discriminate; cbn in H; injection H as <- <-; lia. }
  exists f. vm_compute in E. injection E as <-. 
  do 2 eexists. split; [vm_compute; reflexivity|]. split; [exact W|].
  split; [vm_compute; reflexivity|]. split; [vm_compute; reflexivity|]. split; [vm_compute; reflexivity|].
  split; [vm_compute; reflexivity|]. vm_compute. auto.
Qed.
(** one violated clause, repaired *)
Example C36_example :
  exists f o, sample = Some f /\ consistent 4 f /\
    hard_decision_analysis f n0 (map zn [-1; -1; 1; -1]%Z) = Some o /\
    v_unsat (k_sum o) = [1] /\
    option_map (fun o' => v_unsat (k_sum o')) (post_processing f (fun l => l) (fun l => l) 2 o) = Some [].
Proof.
  destruct C37_example as (f & _ & _ & Ef & W & _). exists f. eexists.
  split; [auto|]. split; [auto|]. vm_compute in Ef. injection Ef as <-.
  split; [vm_compute; reflexivity|]. split; vm_compute; reflexivity.
Qed.
(** a NaN decision counts as true: variable 0 is NaN, so clause 0 is satisfied *)
Example C34_example :
  exists f o, sample = Some f /\ consistent 4 f /\
    hard_decision_analysis f n0 [NaN; zn (-1); zn 0; zn (-1)] = Some o /\
    v_unsat (k_sum o) = [] /\ v_sat (k_sum o) = [0; 1] /\ v_active (k_sum o) = [3; 0; 2; 1] /\
    k_flag o = true.
Proof.
  destruct C37_example as (f & _ & _ & Ef & W & _). exists f. eexists.
  split; [auto|]. split; [auto|]. vm_compute in Ef. injection Ef as <-.
  split; [vm_compute; reflexivity|]. vm_compute. auto.
Qed.

(** C41 *)
Lemma similarity_range a b : (0 <= similarity a b <= 1)%Q.
Proof.
  unfold similarity. destruct (Nat.eqb_spec (length (dedup (a ++ b))) 0) as [|Ne]; [lra|].
  assert (Le : length (filter (fun x => mem x b) (dedup a)) <= length (dedup (a ++ b))).
  { apply NoDup_incl_length.
    - apply NoDup_filter, NoDup_nodup.
    - intros x Hx. apply filter_In in Hx. destruct Hx as [Hx _]. apply nodup_In in Hx.
      apply nodup_In, in_or_app. auto. }
  set (i := length (filter _ _)) in *. set (u := length (dedup (a ++ b))) in *.
  assert (P : (0 < inject_Z (Z.of_nat u))%Q) by (rewrite <- (Zlt_Qlt 0); lia).
  split.
  - apply Qle_shift_div_l; auto. rewrite Qmult_0_l. rewrite <- (Zle_Qle 0). lia.
  - apply Qle_shift_div_r; auto. rewrite Qmult_1_l. rewrite <- Zle_Qle. lia.
Qed.
Lemma similarity_one a b : (similarity a b == 1)%Q <-> (forall x, In x a <-> In x b).
Proof.
  unfold similarity. destruct (Nat.eqb_spec (length (dedup (a ++ b))) 0) as [E|Ne].
  - split; [|intros; reflexivity]. intros _ x.
    assert (N : dedup (a ++ b) = []) by (destruct (dedup (a ++ b)); [auto|discriminate]).
    assert (K : forall x, ~ In x (a ++ b)) by (intros y Hy; apply (nodup_In Nat.eq_dec) in Hy; unfold dedup in N; rewrite N in Hy; destruct Hy).
    split; intros H; exfalso; apply (K x), in_or_app; auto.
  - assert (I : incl (filter (fun x => mem x b) (dedup a)) (dedup (a ++ b))).
    { intros x Hx. apply filter_In in Hx. destruct Hx as [Hx _]. apply nodup_In in Hx.
      apply nodup_In, in_or_app. auto. }
    assert (N : NoDup (filter (fun x => mem x b) (dedup a))) by (apply NoDup_filter, NoDup_nodup).
    assert (Eq : ((inject_Z (Z.of_nat (length (filter (fun x => mem x b) (dedup a)))) /
                   inject_Z (Z.of_nat (length (dedup (a ++ b))))) == 1)%Q <->
                 length (filter (fun x => mem x b) (dedup a)) = length (dedup (a ++ b))).
    { set (i := length (filter _ _)) in *. set (u := length (dedup (a ++ b))) in *.
      assert (P : ~ (inject_Z (Z.of_nat u) == 0)%Q).
      { intros H. apply (proj1 (inject_Z_injective (Z.of_nat u) 0)) in H. lia. }
      split.
      - intros H. assert (K : (inject_Z (Z.of_nat i) == inject_Z (Z.of_nat u))%Q).
        { transitivity (inject_Z (Z.of_nat i) / inject_Z (Z.of_nat u) * inject_Z (Z.of_nat u))%Q.
          - field; auto.
          - rewrite H. ring. }
        apply Nat2Z.inj. apply (proj1 (inject_Z_injective _ _) K).
      - intros ->. field; auto. }
    rewrite Eq. split.
    + intros L x. assert (J : incl (dedup (a ++ b)) (filter (fun x => mem x b) (dedup a))).
      { apply NoDup_length_incl; auto. lia. }
      assert (Both : In x (a ++ b) -> In x a /\ In x b).
      { intros H. apply (nodup_In Nat.eq_dec), J, filter_In in H. destruct H as [H1 H2].
        apply nodup_In in H1. apply mem_In in H2. auto. }
      split; intros H; apply Both, in_or_app; auto.
    + intros H. apply Nat.le_antisymm; apply NoDup_incl_length; auto; [apply NoDup_nodup|].
      intros x Hx. apply nodup_In, in_app_iff in Hx. apply filter_In. unfold dedup. rewrite mem_In, nodup_In.
      specialize (H x). tauto.
Qed.
(** the reported average lies between 0 and 100, and is 100 exactly when decisions and planted
    assignment agree on all used variables *)
Theorem C41_similarity :
  forall (nv : nat) (f : formula) (hd : list num) (sol : list bool) (s : summary),
    consistent nv f -> length hd = nv -> length sol = nv -> get_summary f hd = Some s ->
    (0 <= average_similarity f s sol <= 100)%Q /\
    ((average_similarity f s sol == 100)%Q <->
     forall v x b, In v (y_used f) -> nth_error hd v = Some x -> nth_error sol v = Some b ->
       (x <> n0 <-> b = true)).
Proof.
  intros nv f hd sol s W L Ls E.
  destruct (get_summary_ok nv f hd W L) as (s' & E' & A & I & _). assert (s' = s) by congruence. subst s'.
  unfold average_similarity.
  set (act := filter (fun x => nth x sol false) (y_used f)).
  set (ina := filter (fun x => negb (nth x sol false)) (y_used f)).
  pose proof (similarity_range (v_active s) act) as R1. pose proof (similarity_range (v_inactive s) ina) as R2.
  pose proof (similarity_one (v_active s) act) as S1. pose proof (similarity_one (v_inactive s) ina) as S2.
  set (p := similarity (v_active s) act) in *. set (q := similarity (v_inactive s) ina) in *.
  assert (M : (100 * (p + q) / 2 == 50 * p + 50 * q)%Q) by field.
  split; [rewrite M; lra|]. rewrite M.
  transitivity ((p == 1)%Q /\ (q == 1)%Q); [split; [intros; split; lra|intros [-> ->]; lra]|].
  rewrite S1, S2, A, I. unfold act, ina.
  assert (G : forall v, In v (y_used f) -> nth_error hd v = Some (nth v hd n0) /\ nth_error sol v = Some (nth v sol false)).
  { intros v Hv. apply (proj1 (Forall_forall _ _) (c_range _ _ W)) in Hv. split; apply nth_error_nth'; lia. }
  split.
  - intros [H1 _] v x b Hv Hx Hb. destruct (G v Hv) as [G1 G2]. specialize (H1 v). rewrite !filter_In in H1.
    rewrite truthy_iff in H1. assert (x = nth v hd n0) by congruence. assert (b = nth v sol false) by congruence.
    subst x b. tauto.
  - intros H. assert (K : forall v, In v (y_used f) -> truthy (nth v hd n0) = nth v sol false).
    { intros v Hv. destruct (G v Hv) as [G1 G2]. specialize (H v _ _ Hv G1 G2). rewrite <- truthy_iff in H.
      destruct (truthy (nth v hd n0)), (nth v sol false); auto; [symmetry; apply H; auto|apply H; auto]. }
    split; intros v; rewrite !filter_In; (split; intros [H1 H2]; (split; [auto|]));
      [rewrite <- K|rewrite K|rewrite <- K|rewrite K]; auto.
Qed.
Example C41_example :
  option_map (fun f => option_map (fun s => Qred (average_similarity f s [true; false; true; false]))
      (get_summary f [n1; n1; n1; n0])) sample = Some (Some (175 # 3)%Q) /\
  option_map (fun f => option_map (fun s => Qred (average_similarity f s [true; false; true; false]))
      (get_summary f [n1; n0; n1; n0])) sample = Some (Some 100%Q).
Proof. split; vm_compute; reflexivity. Qed.

(** C47.  A complete call: a random instance, the initial messages, the C++ solver for any number
    of iterations with or without filtering, the hard decision and the optional post-processing,
    as in [initialize] and [run_impa] (Impa.py:2267-2359, 2443-2505). *)
Definition py_ksat_run (nv k : nat) (sol : list bool) (ord : list nat -> list nat) (draws : list draw)
  (metrics : list num) (iters : nat) (flag : bool) (alpha thr : num) (post_process : bool) (pp : nat)
  (ord2 ord3 : list nat -> list nat) : option (formula * list num * ks_obj) :=
  f <- create_formula nv k sol ord draws ;;
  m <- initial_messages nv f metrics ;;
  ext <- wrapper_ksat iters nv (y_nc f) (length (y_used f)) alpha flag (y_used f) (concat (y_vconx f))
           (map (@length nat) (y_vconx f)) (concat (y_conx f)) (concat (y_types f)) metrics (concat m) k ;;
  o <- py_ksat_finish f ord2 ord3 thr pp post_process metrics ext ;;
  Some (f, ext, o).
Theorem C47_ksat_call :
  forall (nv k : nat) (sol : list bool) (ord ord2 ord3 : list nat -> list nat) (draws : list draw)
         (metrics : list Qc) (iters : nat) (flag : bool) (alpha : Qc) (thr : num) (post_process : bool) (pp : nat),
    2 <= k -> length sol = nv -> Forall (valid_draw nv k) draws -> length metrics = nv ->
    (forall l, Permutation l (ord l)) -> (forall l, Permutation l (ord2 l)) -> (forall l, Permutation l (ord3 l)) ->
    exists f ext intr o,
      py_ksat_run nv k sol ord draws (map Fin metrics) iters flag (Fin alpha) thr post_process pp ord2 ord3
        = Some (f, map Fin ext, o) /\
      consistent nv f /\
      (* the intrinsic value is the solver's output plus the metric of a used variable *)
      length intr = nv /\ length ext = nv /\
      (forall v, v < nv -> nth v intr 0%Qc
         = (nth v ext 0 + (if mem v (y_used f) then nth v metrics 0 else 0))%Qc) /\
      (* without post-processing, or if it is not needed, the decisions are threshold decisions *)
      (post_process = false \/ (forall c, c < y_nc f -> clause_true f (map (py_decide thr) (map Fin intr)) c) ->
       k_hd o = map (py_decide thr) (map Fin intr)) /\
      (* what is reported is true of the decisions left in the object *)
      length (k_hd o) = nv /\
      (forall c, In c (v_unsat (k_sum o)) <-> c < y_nc f /\ ~ clause_true f (k_hd o) c) /\
      (k_flag o = true <-> forall c, c < y_nc f -> clause_true f (k_hd o) c).
Proof.
  intros nv k sol ord ord2 ord3 draws metrics iters flag alpha thr post pp Hk Ls Hd Lm P1 P2 P3.
  unfold py_ksat_run.
  destruct (create_formula_ok nv k sol ord draws) as (f & E & W & Q & N & L); auto; [lia|].
  rewrite E. cbn [bind].
  destruct (initial_messages_ok nv f metrics W Lm) as (M & Em & SM & _). rewrite Em. cbn [bind].
  assert (Wf : forall c cx tys, nth_error (y_conx f) c = Some cx -> nth_error (y_types f) c = Some tys ->
     clause_wf nv k cx tys).
  { intros c cx tys H1 H2. pose proof (nth_error_In _ _ H1) as I1.
    apply (proj1 (Forall_forall _ _) (q_size _ _ _ _ Q)) in I1. destruct I1 as [I1 I2].
    destruct (c_rows _ _ W _ _ H1) as (ts & T1 & T2). assert (ts = tys) by congruence. subst ts.
    destruct (row_at nv f c W) as (r & Er & Fr).
    { rewrite <- (c_conx _ _ W). apply nth_error_Some. congruence. }
    assert (r = cx) by congruence. subst r.
    split; [auto|split; [congruence|split; [auto|split; [auto|]]]].
    apply Forall_forall. intros t Ht. apply In_nth_error in Ht. destruct Ht as [j Hj].
    destruct (nth_error cx j) as [v|] eqn:Ev.
    2:{ apply nth_error_None in Ev. assert (j < length tys) by (apply nth_error_Some; congruence). lia. }
    apply (c_sign _ _ W c v t). exists j. unfold get2, get. rewrite H1, H2. auto. }
  destruct (C15_ksat_safe iters nv (y_nc f) k (y_used f) metrics (y_conx f) (y_types f) M (y_vconx f) flag alpha)
    as (ext & Ee & Le); auto.
  { split; [apply (c_conx _ _ W)|]. eapply Forall_impl; [|apply (q_size _ _ _ _ Q)]. intros r [H _]; auto. }
  { split; [apply (c_types _ _ W)|]. apply Forall_forall. intros ts Hts. apply In_nth_error in Hts.
    destruct Hts as [c Hc]. destruct (nth_error (y_conx f) c) as [r|] eqn:Er.
    - destruct (Wf c r ts Er Hc) as (_ & K & _). auto.
    - apply nth_error_None in Er. rewrite (c_conx _ _ W), <- (c_types _ _ W) in Er.
      assert (c < length (y_types f)) by (apply nth_error_Some; congruence). lia. }
  { apply (c_vconx _ _ W). }
  { apply (c_range _ _ W). }
  { intros x l Hx. apply Forall_forall. intros c Hc. apply In_nth_error in Hc. destruct Hc as [j Hj].
    destruct (c_vrows _ _ W _ _ Hx) as (ts & T1 & T2).
    destruct (nth_error ts j) as [t|] eqn:Et.
    2:{ apply nth_error_None in Et. assert (j < length l) by (apply nth_error_Some; congruence). lia. }
    assert (I : in_variable f c x t) by (exists j; unfold get2, get; rewrite Hx, T1; auto).
    apply (c_same _ _ W) in I. destruct I as (i & I & _). unfold get2 in I.
    destruct (get (y_conx f) c) eqn:Ec; [|discriminate]. apply get_Some_lt in Ec. rewrite (c_conx _ _ W) in Ec. auto. }
  { intros j Hj Hu. destruct (nth j (y_vconx f) []) as [|c l] eqn:En; auto. destruct Hu.
    assert (Hx : nth_error (y_vconx f) j = Some (c :: l)).
    { rewrite <- En. apply nth_error_nth'. rewrite (c_vconx _ _ W). auto. }
    destruct (c_vrows _ _ W _ _ Hx) as ([|t ts] & T1 & T2); [discriminate|].
    apply (c_used _ _ W c j t). apply (c_same _ _ W). exists 0. unfold get2, get. rewrite Hx, T1. auto. }
  rewrite Ee. cbn [bind]. unfold py_ksat_finish.
  destruct (intrinsic_ok nv f metrics ext W N Lm Le) as (intr & Ei & Li & Hi). rewrite Ei. cbn [bind].
  assert (Lmi : length (map Fin intr) = nv) by (rewrite map_length; auto).
  destruct (C34_flag_exact nv f thr (map Fin intr) W Lmi) as (o & Eo & F1 & F2). rewrite Eo. cbn [bind].
  assert (Ho : k_hd o = map (py_decide thr) (map Fin intr) /\ length (k_hd o) = nv /\
     (forall c, In c (v_unsat (k_sum o)) <-> c < y_nc f /\ ~ clause_true f (k_hd o) c)).
  { unfold hard_decision_analysis in Eo.
    destruct (C34_summary_exact nv f (map (py_decide thr) (map Fin intr)) W) as (s & Es & U & _).
    { rewrite map_length; auto. }
    rewrite Es in Eo. cbn [bind] in Eo. injection Eo as <-. cbn [k_hd k_sum].
    split; [auto|split; [rewrite map_length; auto|auto]]. }
  destruct Ho as (Hh & Lh & Uh).
  destruct (nonempty (v_unsat (k_sum o)) && post) eqn:B.
  - apply andb_prop in B. destruct B as [B1 ->].
    destruct (C37_report_matches_result nv f thr (map Fin intr) ord2 ord3 pp W Lmi P2 P3)
      as (o1 & o' & Eo1 & Ep & L' & U' & _ & _ & _ & Fl').
    assert (o1 = o) by congruence. subst o1. rewrite Ep. cbn [bind].
    exists f, ext, intr, o'. split; [reflexivity|]. split; [auto|]. split; [auto|]. split; [auto|]. split; [auto|].
    split.
    { intros [H | H]; [discriminate|]. rewrite <- Hh in H. apply F1 in H. apply F2 in H. rewrite H in B1. discriminate. }
    split; [auto|]. split; [auto|]. rewrite Fl'. split.
    + intros H c Hc. destruct (existsb (is_true (k_hd o')) (lits f c)) eqn:Bx.
      * apply existsb_exists in Bx. destruct Bx as ((v & t) & X1 & X2). apply in_lits in X1.
        exists v, t. split; auto. apply (is_true_iff nv f _ c); auto.
      * exfalso. assert (X : In c (v_unsat (k_sum o'))).
        { apply U'. split; auto. intros (v & t & X1 & X2). apply (is_true_iff nv f _ c) in X2; auto.
          apply in_lits in X1. rewrite <- Bool.not_true_iff_false in Bx. apply Bx, existsb_exists. eauto. }
        rewrite H in X. destruct X.
    + intros H. destruct (v_unsat (k_sum o')) as [|c l] eqn:Eu; auto. exfalso.
      destruct (proj1 (U' c)) as [X1 X2]; [left; auto|]. apply X2, H, X1.
  - cbn [bind]. exists f, ext, intr, o. split; [reflexivity|]. split; [auto|]. split; [auto|]. split; [auto|]. split; [auto|].
    split; [auto|]. split; [auto|]. split; [auto|]. exact F1.
Qed.
(** a complete call on the example instance: two iterations with filtering *)
Example C47_example :
  option_map (fun r => let '(f, ext, o) := r in (y_conx f, map view ext, map view (k_hd o), v_unsat (k_sum o), k_flag o))
    (py_ksat_run 4 2 [true; false; true; false] (fun l => l)
       [d2 0 2 false; d2 3 0 true; d2 1 1 true; d2 2 1 false] (map zn [3; -4; 1; -2]%Z) 2 true (Fin (Q2Qc (1 # 2))) n0 true 2
       (fun l => l) (fun l => l))
  = Some ([[0; 3]; [1; 2]], [VFin (-3 # 2); VFin (3 # 4); VFin (-3); VFin (9 # 4)],
          [VFin 0; VFin 1; VFin 1; VFin 0], [], true).
Proof. vm_compute. reflexivity. Qed.

(** C48.  The messages handed to the first iteration: the metric of a variable in each of its
    clauses, 0 elsewhere. *)
Theorem C48_initial_messages :
  forall (nv : nat) (f : formula) (metrics : list Qc),
    consistent nv f -> length metrics = nv ->
    exists M, initial_messages nv f (map Fin metrics) = Some (inj M) /\ shape (y_nc f) nv M /\
      (forall c v t, in_clause f c v t -> qat M c v = nth v metrics 0%Qc) /\
      (forall c v, c < y_nc f -> v < nv -> ~ (exists t, in_clause f c v t) -> qat M c v = 0%Qc).
Proof.
  intros nv f metrics W L. destruct (initial_messages_ok nv f metrics W L) as (M & E & S & H).
  assert (R : forall c v, c < y_nc f -> In v (nth c (y_conx f) []) <-> exists t, in_clause f c v t).
  { intros c v Hc. destruct (row_at nv f c W Hc) as (r & Er & _). rewrite (nth_error_nth _ _ _ Er).
    destruct (c_rows _ _ W _ _ Er) as (ts & Et & Lt). split.
    - intros Hv. apply In_nth_error in Hv. destruct Hv as [j Hj].
      destruct (nth_error ts j) as [t|] eqn:Ej.
      2:{ apply nth_error_None in Ej. assert (j < length r) by (apply nth_error_Some; congruence). lia. }
      exists t, j. unfold get2, get. rewrite Er, Et. auto.
    - intros (t & j & H1 & _). unfold get2, get in H1. rewrite Er in H1. cbn in H1. eapply nth_error_In; eauto. }
  exists M. split; [auto|split; [auto|split]].
  - intros c v t I. assert (Hc : c < y_nc f).
    { destruct I as (j & I & _). unfold get2 in I. destruct (get (y_conx f) c) eqn:Ec; [|discriminate].
      apply get_Some_lt in Ec. rewrite (c_conx _ _ W) in Ec. auto. }
    assert (Hv : v < nv) by (apply (clause_var nv f c v t); auto; apply in_lits; auto).
    rewrite H by auto. rewrite (proj2 (mem_In v (nth c (y_conx f) []))); auto. apply R; eauto.
  - intros c v Hc Hv I. rewrite H by auto. rewrite (proj2 (mem_not_In v (nth c (y_conx f) []))); auto.
    rewrite R by auto. auto.
Qed.
Example C48_example :
  option_map (fun f => option_map (map (map view)) (initial_messages 4 f (map zn [3; -4; 1; -2]%Z))) sample
  = Some (Some (map (map (fun z => VFin (inject_Z z))) [[3; 0; 0; -2]; [0; -4; 1; 0]]%Z)).
Proof. vm_compute. reflexivity. Qed.

Print Assumptions C34_summary_exact.
Print Assumptions C34_flag_exact.
Print Assumptions C35_generated_partial.
Print Assumptions C35_count_refuted.
Print Assumptions C36_never_worse_refuted.
Print Assumptions C36_never_worse_partial.
Print Assumptions C36_stages_partial.
Print Assumptions C37_report_matches_result.
Print Assumptions C41_similarity.
Print Assumptions C47_ksat_call.
Print Assumptions C48_initial_messages.
