(** * Property C58: on formulas without cycles the K-SAT solver is exact. *)
From Coq Require Import Permutation.
From Verif Require Import Num NumFacts Arr ArrFacts Spec SpecRun SpecForest MinSum MinSumFacts P_Ksat P_Tsp_Sched P_Tsp_Order.
From Verif Require Import M_Tsp_Run M_Ksat_Py P_Ksat_Py P_Ksat_Gen P_PyRef_Ksat P_Forest P_Ksat_Tree P_Ksat_Opt.
From Verif Require Import M_InOut M_Runs P_Runs P_Schedule T_Schedule T_Ksat_Py T_PyRef_Run.
Local Open Scope nat_scope.

(** C58.  Let the clauses form a forest, let filtering be off, and let there be at least as many
    iterations as clauses (one more if the initial messages are not the metrics).  Then the value
    returned for a variable is the min-sum message of the whole formula: the cheapest satisfying
    assignment with the variable set to 1 minus the cheapest with it set to 0, where a variable
    that is set costs its metric (the variable itself is not counted). *)
Theorem C58_tree_exact :
  forall (iters nv nc k : nat) (used : list nat) (metrics : list Qc) (conx : list (list nat))
         (types : list (list Z)) (V0 : list (list Qc)) (varconx : list (list nat)) (alpha : Qc),
    2 <= k -> length metrics = nv -> shape nc k conx -> shape nc k types -> shape nc nv V0 ->
    (forall c cx tys, nth_error conx c = Some cx -> nth_error types c = Some tys ->
       clause_wf nv k cx tys) ->
    length varconx = nv -> Forall (fun x => x < nv) used ->
    (forall x l, nth_error varconx x = Some l -> NoDup l /\ forall c, In c l <-> In x (nth c conx [])) ->
    (forall j, j < nv -> ~ In j used -> nth j varconx [] = []) ->
    tree_like conx ->
    nc < iters \/ (nc <= iters /\ forall c x, In x (nth c conx []) -> qat V0 c x = nth x metrics 0%Qc) ->
    exists (ext : list Qc),
      wrapper_ksat iters nv nc (length used) (Fin alpha) false used (concat varconx)
        (map (@length nat) varconx) (concat conx) (concat types) (map Fin metrics) (concat (inj V0)) k
      = Some (map Fin ext) /\ length ext = nv /\
      forall w, w < nv -> minsum_message (satisfies conx types) metrics w (Fin (nth w ext 0%Qc)).
Proof.
  intros iters nv nc k used metrics conx types V0 varconx alpha Hk Lm Sc St SV Wf Lv Hu Hin Hun (idx & P & F) Hit.
  pose proof (proj1 Sc) as Lc. pose proof (proj1 St) as Lt. rewrite Lc in P.
  destruct (tree_core iters nv nc k used metrics conx types V0 varconx idx) with (alpha := alpha)
    as (ext & E & Le & G); auto.
  exists ext. split; [exact E|split; [exact Le|]]. intros w Hw.
  eapply gmsg_minsum; eauto.
Qed.

(** C58, complete call.  If a satisfying assignment [x] is cheaper than every other one (that
    differs on a variable of the formula) by more than the threshold, the decisions are [x] and the
    formula is reported as satisfied. *)
Theorem C58_tree_optimal :
  forall (nv k : nat) (sol : list bool) (ord ord2 ord3 : list nat -> list nat) (draws : list draw)
         (metrics : list Qc) (iters : nat) (alpha theta : Qc) (post_process : bool) (pp : nat)
         (f : formula) (x : list bool),
    2 <= k -> length sol = nv -> Forall (valid_draw nv k) draws -> length metrics = nv ->
    (forall l, Permutation l (ord l)) -> (forall l, Permutation l (ord2 l)) -> (forall l, Permutation l (ord3 l)) ->
    create_formula nv k sol ord draws = Some f -> tree_like (y_conx f) -> y_nc f <= iters ->
    length x = nv -> satisfies (y_conx f) (y_types f) x ->
    (forall y, length y = nv -> satisfies (y_conx f) (y_types f) y ->
       (exists v, In v (y_used f) /\ nth v y false <> nth v x false) ->
       (cost_on (y_used f) metrics x + theta < cost_on (y_used f) metrics y)%Qc /\
       (cost_on (y_used f) metrics x - theta < cost_on (y_used f) metrics y)%Qc) ->
    exists ext o,
      py_ksat_run nv k sol ord draws (map Fin metrics) iters false (Fin alpha) (Fin theta) post_process pp ord2 ord3
        = Some (f, map Fin ext, o) /\
      (forall v, In v (y_used f) -> nth_error (k_hd o) v = Some (bit (nth v x false))) /\
      k_flag o = true.
Proof.
  intros nv k sol ord ord2 ord3 draws metrics iters alpha theta post pp f x Hk Ls Hd Lm P1 P2 P3 Ef (idx & P & F) Hit Lx Sx Opt.
  destruct (call_facts nv k sol ord ord2 ord3 draws metrics theta f x) as (M & Sh & Ex & Call); auto.
  destruct Sh as (Em & Lc & Sc & St & SM & Wf & Lv & Ru & Vw & V4 & HM & Hmu). rewrite Lc in P.
  destruct (tree_core iters nv (y_nc f) k (y_used f) metrics (y_conx f) (y_types f) M (y_vconx f) idx)
    with (alpha := alpha) as (ext & E & Le & G); auto.
  destruct (Call iters false alpha post pp ext E) as (o & R).
  - intros w Hw. apply (Ex idx); auto. apply G; auto. rewrite Forall_forall in Ru. auto.
  - exists ext, o. exact R.
Qed.

(** ** Examples *)

(** the implications 0 -> 1 -> 2 -> 3: setting 0 saves 3, setting 1, 2, 3 costs 1 each, 1/2 for 2 *)
Definition chain_draws : list draw := [d2 1 0 false; d2 2 1 false; d2 3 2 false].
Definition chain_metrics : list Qc := map Q2Qc [-3; 1; 1 # 2; 1]%Q.
Definition chain_best : list bool := [true; true; true; true].

Ltac clause_false H c :=
  let X := fresh in let j := fresh "j" in let s := fresh in let b := fresh in
  let J1 := fresh in let J2 := fresh in let J3 := fresh in
  pose proof (H c _ _ eq_refl eq_refl) as X; destruct X as (j & s & b & J1 & J2 & J3);
  exfalso; destruct j as [|[|j]]; cbn in J1, J2; try (injection J1 as <-; injection J2 as <-; discriminate J3);
  destruct j; discriminate J1.

Ltac leafc :=
  let u := fresh in let c := fresh in let H1 := fresh in let H2 := fresh in let H3 := fresh in let H4 := fresh in
  intros u c H1 H2 H3 H4; cbn in H1, H3;
  repeat match goal with H : _ \/ _ |- _ => destruct H | H : False |- _ => destruct H end; subst; cbn in H4; lia.

Example C58_example :
  exists f, create_formula 4 2 [true; true; true; true] (fun l => l) chain_draws = Some f /\
    y_conx f = [[1; 0]; [2; 1]; [3; 2]] /\ y_types f = [[1; -1]; [1; -1]; [1; -1]]%Z /\
    Forall (valid_draw 4 2) chain_draws /\ tree_like (y_conx f) /\ y_nc f <= 3 /\
    satisfies (y_conx f) (y_types f) chain_best /\
    (forall y, length y = 4 -> satisfies (y_conx f) (y_types f) y ->
       (exists v, In v (y_used f) /\ nth v y false <> nth v chain_best false) ->
       (cost_on (y_used f) chain_metrics chain_best + 0 < cost_on (y_used f) chain_metrics y)%Qc /\
       (cost_on (y_used f) chain_metrics chain_best - 0 < cost_on (y_used f) chain_metrics y)%Qc) /\
    (* with two iterations, one less than there are clauses, the last implication is violated *)
    map (fun iters => option_map (fun r => let '(_, ext, o) := r in (map view ext, map view (k_hd o), k_flag o))
      (py_ksat_run 4 2 [true; true; true; true] (fun l => l) chain_draws (map Fin chain_metrics) iters false n0 n0
         false 0 (fun l => l) (fun l => l))) [1; 2; 3]
    = [Some ([VFin 1; VFin (-5 # 2); VFin 1; VFin 0], [VFin 1; VFin 1; VFin 0; VFin 0], false);
       Some ([VFin (3 # 2); VFin (-3 # 2); VFin (-1); VFin 0], [VFin 1; VFin 1; VFin 1; VFin 0], false);
       Some ([VFin (5 # 2); VFin (-3 # 2); VFin (-1); VFin (-3 # 2)], [VFin 1; VFin 1; VFin 1; VFin 1], true)].
Proof.
  eexists. split; [vm_compute; reflexivity|]. split; [reflexivity|]. split; [reflexivity|].
  split; [repeat constructor; cbn; try lia; intros [|[|j]] i s H; try discriminate; cbn in H; injection H as <- <-; lia|].
  split.
  { exists [2; 1; 0]. split; [|].
    - cbn. apply perm_trans with [1; 2; 0]; [constructor|]. apply perm_trans with [1; 0; 2]; repeat constructor.
    - apply forest_cons with (v := 2); [cbn; auto|leafc|].
      apply forest_cons with (v := 1); [cbn; auto|leafc|].
      apply forest_cons with (v := 1); [cbn; auto|leafc|constructor]. }
  split; [cbn; lia|]. split.
  { intros c cx tys Hc Ht. destruct c as [|[|[|c]]]; cbn in Hc, Ht; try (destruct c; discriminate);
      injection Hc as <-; injection Ht as <-; exists 0, true, true; auto. }
  split.
  { cbn [y_conx y_types y_used]. intros y Ly Sy (v & Iv & Nv).
    destruct y as [|b0 [|b1 [|b2 [|b3 [|]]]]]; try discriminate. clear Ly.
    destruct b0, b1, b2, b3; try (clause_false Sy 0); try (clause_false Sy 1); try (clause_false Sy 2).
    all: try (split; vm_compute; reflexivity).
    exfalso. cbn in Iv. apply Nv. intuition subst; reflexivity. }
  vm_compute. reflexivity.
Qed.

(** two clauses of three literals sharing variable 2, initial messages unrelated to the metrics:
    the hypotheses of [C58_tree_exact], the output, and what the theorem says about it *)
Example C58_exact_example :
  let conx := [[0; 1; 2]; [3; 2; 4]] in
  let types := [[1; -1; 1]; [-1; -1; 1]]%Z in
  let varconx := [[0]; [0]; [0; 1]; [1]; [1]] in
  let metrics := map zq [4; -2; 1; -3; 2]%Z in
  let V0 := map (map zq) [[7; 0; -9; 5; 5]; [1; 1; 1; 0; 8]]%Z in
  let out := map zq [-2; 3; 0; 1; -1]%Z in
  wrapper_ksat 3 5 2 5 (Fin (zq 0)) false [0; 1; 2; 3; 4] (concat varconx) (map (@length nat) varconx)
    (concat conx) (concat types) (map Fin metrics) (concat (inj V0)) 3 = Some (map Fin out) /\
  forall w, w < 5 -> minsum_message (satisfies conx types) metrics w (Fin (nth w out 0%Qc)).
Proof.
  intros conx types varconx metrics V0 out.
  assert (E : wrapper_ksat 3 5 2 5 (Fin (zq 0)) false [0; 1; 2; 3; 4] (concat varconx) (map (@length nat) varconx)
    (concat conx) (concat types) (map Fin metrics) (concat (inj V0)) 3 = Some (map Fin out)).
  { vm_compute. reflexivity. }
  split; [exact E|].
  destruct (C58_tree_exact 3 5 2 3 [0; 1; 2; 3; 4] metrics conx types V0 varconx (zq 0)) as (ext & E' & _ & G).
  - lia.
  - reflexivity.
  - split; [reflexivity|repeat constructor].
  - split; [reflexivity|repeat constructor].
  - split; [reflexivity|repeat constructor].
  - intros [|[|c]] cx tys H1 H2; cbn in H1, H2; try (destruct c; discriminate);
      injection H1 as <-; injection H2 as <-; unfold clause_wf, pm1;
      repeat split; auto; repeat constructor; auto; cbn; intuition discriminate.
  - reflexivity.
  - repeat constructor.
  - intros x l Hx. split.
    + destruct x as [|[|[|[|[|x]]]]]; cbn in Hx; try (destruct x; discriminate Hx); injection Hx as <-;
        repeat constructor; cbn; intuition discriminate.
    + intros c. destruct x as [|[|[|[|[|x]]]]]; cbn in Hx; try (destruct x; discriminate Hx); injection Hx as <-;
        clear E; destruct c as [|[|[|c]]]; cbn; lia.
  - intros [|[|[|[|[|j]]]]] Hj N; try (exfalso; apply N; cbn; tauto); lia.
  - exists [0; 1]. split; [apply Permutation_refl|]. apply forest_cons with (v := 2); [cbn; auto|leafc|].
    apply forest_cons with (v := 2); [cbn; auto|leafc|constructor].
  - left. lia.
  - intros w Hw. change (length [0; 1; 2; 3; 4]) with 5 in E'. rewrite E in E'.
    assert (X : map Fin out = map Fin ext) by congruence.
    assert (Y : nth w out 0%Qc = nth w ext 0%Qc).
    { rewrite (fins_inj _ _ X). reflexivity. }
    rewrite Y. apply G. exact Hw.
Qed.

(** Formulas with a cycle are outside the property: on the triangle (not 0 or 1), (1 or not 2),
    (not 2 or not 0) the unique cheapest assignment is 1, 1, 0, but after five iterations all
    variables are set and the last clause is violated. *)
Definition c58_any_formula : Prop :=
  forall (nv k : nat) (sol : list bool) (draws : list draw) (metrics : list Qc) (iters : nat)
         (f : formula) (x : list bool),
    2 <= k -> length sol = nv -> Forall (valid_draw nv k) draws -> length metrics = nv ->
    create_formula nv k sol (fun l => l) draws = Some f -> y_nc f <= iters ->
    length x = nv -> satisfies (y_conx f) (y_types f) x ->
    (forall y, length y = nv -> satisfies (y_conx f) (y_types f) y ->
       (exists v, In v (y_used f) /\ nth v y false <> nth v x false) ->
       (cost_on (y_used f) metrics x < cost_on (y_used f) metrics y)%Qc) ->
    exists ext o,
      py_ksat_run nv k sol (fun l => l) draws (map Fin metrics) iters false n0 n0 false 0 (fun l => l) (fun l => l)
        = Some (f, map Fin ext, o) /\ k_flag o = true.
Theorem C58_any_formula_refuted : ~ c58_any_formula.
Proof.
  intros H. specialize (H 3 2 [true; true; false] [d2 1 0 false; d2 1 1 false; d2 2 0 false]
    (map zq [-3; 2; -1]%Z) 5).
  edestruct H with (x := [true; true; false]) as (ext & o & E & Fl).
  - lia.
  - reflexivity.
  - repeat constructor; cbn; try lia; intros [|[|j]] i s X; try discriminate; cbn in X; injection X as <- <-; lia.
  - reflexivity.
  - vm_compute. reflexivity.
  - cbn. lia.
  - reflexivity.
  - intros c cx tys Hc Ht. destruct c as [|[|[|c]]]; cbn in Hc, Ht; try (destruct c; discriminate);
      injection Hc as <-; injection Ht as <-; exists 0; eexists; eexists; repeat split; reflexivity.
  - cbn [y_conx y_types y_used]. intros y Ly Sy (v & Iv & Nv).
    destruct y as [|b0 [|b1 [|b2 [|]]]]; try discriminate. clear Ly H.
    destruct b0, b1, b2; try (clause_false Sy 0); try (clause_false Sy 1); try (clause_false Sy 2).
    all: try (vm_compute; reflexivity).
    exfalso. cbn in Iv. apply Nv. intuition subst; reflexivity.
  - assert (X : option_map (fun r => k_flag (snd r))
      (py_ksat_run 3 2 [true; true; false] (fun l => l) [d2 1 0 false; d2 1 1 false; d2 2 0 false]
         (map Fin (map zq [-3; 2; -1]%Z)) 5 false n0 n0 false 0 (fun l => l) (fun l => l)) = Some false).
    { vm_compute. reflexivity. }
    rewrite E in X. cbn [option_map snd] in X. congruence.
Qed.

Print Assumptions C58_tree_exact.
Print Assumptions C58_tree_optimal.
Print Assumptions C58_any_formula_refuted.
Print Assumptions C58_example.
Print Assumptions C58_exact_example.
