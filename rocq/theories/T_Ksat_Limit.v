(** * Property C61: on formulas without cycles the filtered K-SAT solver converges to the exact answer. *)
From Coq Require Import Permutation.
From Verif Require Import Num NumFacts Arr ArrFacts Spec SpecRun SpecForest MinSum MinSumFacts P_Ksat P_Tsp_Sched P_Tsp_Order.
From Verif Require Import M_Tsp_Run M_Ksat_Py P_Ksat_Py P_Ksat_Gen P_PyRef_Ksat P_Forest P_Forest_Limit P_Ksat_Tree P_Ksat_Limit P_Ksat_Opt.
From Verif Require Import M_InOut M_Runs P_Runs P_Schedule T_Schedule T_Ksat_Py T_PyRef_Run T_Ksat_Tree.
Local Open Scope nat_scope.

Lemma choose_list (P : nat -> Qc -> Prop) n : (forall w, w < n -> exists d, P w d) ->
  exists l, length l = n /\ forall w, w < n -> P w (nth w l 0%Qc).
Proof.
  induction n as [|n IH]; intros H.
  - exists []. split; [reflexivity|lia].
  - destruct IH as (l & Ll & Hl); [intros; apply H; lia|]. destruct (H n) as (d & Hd); [lia|].
    exists (l ++ [d]). split; [rewrite app_length; cbn; lia|]. intros w Hw.
    destruct (Nat.eq_dec w n) as [->|N]; [rewrite app_nth2, Ll, Nat.sub_diag by lia; exact Hd|].
    rewrite app_nth1 by lia. apply Hl. lia.
Qed.

(** C61.  Let the clauses form a forest and let the filter factor be below 1, with filtering on or
    off and with any initial messages.  There is one list of exact values, the min-sum messages of
    the whole formula, which the outputs of the solver approach as the number of iterations grows. *)
Theorem C61_tree_limit :
  forall (nv nc k : nat) (used : list nat) (metrics : list Qc) (conx : list (list nat))
         (types : list (list Z)) (V0 : list (list Qc)) (varconx : list (list nat)) (flag : bool) (alpha : Qc),
    2 <= k -> length metrics = nv -> shape nc k conx -> shape nc k types -> shape nc nv V0 ->
    (forall c cx tys, nth_error conx c = Some cx -> nth_error types c = Some tys ->
       clause_wf nv k cx tys) ->
    length varconx = nv -> Forall (fun x => x < nv) used ->
    (forall x l, nth_error varconx x = Some l -> NoDup l /\ forall c, In c l <-> In x (nth c conx [])) ->
    (forall j, j < nv -> ~ In j used -> nth j varconx [] = []) ->
    tree_like conx -> (0 <= alpha)%Qc -> (alpha < 1)%Qc ->
    exists exact : list Qc, length exact = nv /\
      (forall w, w < nv -> minsum_message (satisfies conx types) metrics w (Fin (nth w exact 0%Qc))) /\
      forall e, (0 < e)%Qc -> exists T, forall iters, T <= iters -> exists ext : list Qc,
        wrapper_ksat iters nv nc (length used) (Fin alpha) flag used (concat varconx)
          (map (@length nat) varconx) (concat conx) (concat types) (map Fin metrics) (concat (inj V0)) k
        = Some (map Fin ext) /\ length ext = nv /\
        forall w, w < nv -> (nth w exact 0 - e <= nth w ext 0 /\ nth w ext 0 <= nth w exact 0 + e)%Qc.
Proof.
  intros nv nc k used metrics conx types V0 varconx flag alpha Hk Lm Sc St SV Wf Lv Hu Hin Hun (idx & P & F) A0 A1.
  rewrite (proj1 Sc) in P.
  destruct (choose_list (fun w d => gmsg (seq 0 nv) (clause_at conx types) idx (fun u => nth u metrics 0%Qc) w d /\
    forall e, (0 < e)%Qc -> exists T, forall iters, T <= iters -> exists ext,
      wrapper_ksat iters nv nc (length used) (Fin alpha) flag used (concat varconx)
        (map (@length nat) varconx) (concat conx) (concat types) (map Fin metrics) (concat (inj V0)) k
        = Some (map Fin ext) /\ length ext = nv /\ near e d (nth w ext 0%Qc)) nv) as (exact & Lx & Hx).
  { intros w Hw. apply limit_core; auto. }
  exists exact. split; [exact Lx|]. split.
  - intros w Hw. eapply gmsg_minsum; eauto. apply Hx, Hw.
  - intros e He.
    destruct (eventually (fun w iters => exists ext,
      wrapper_ksat iters nv nc (length used) (Fin alpha) flag used (concat varconx)
        (map (@length nat) varconx) (concat conx) (concat types) (map Fin metrics) (concat (inj V0)) k
        = Some (map Fin ext) /\ length ext = nv /\ near e (nth w exact 0%Qc) (nth w ext 0%Qc)) (seq 0 nv)) as (T & HT).
    { intros w Hw. apply Hx; [apply in_seq in Hw; lia|exact He]. }
    exists T. intros iters Hi. specialize (HT iters Hi).
    destruct (run_fsched iters nv nc k used metrics conx types V0 varconx idx flag alpha (fun u => nth u metrics 0%Qc))
      as (ext & _ & _ & _ & E & Le & _); auto.
    exists ext. split; [exact E|split; [exact Le|]]. intros w Hw.
    destruct (HT w) as (ext' & E' & _ & N); [apply in_seq; lia|].
    rewrite E in E'. assert (X : map Fin ext = map Fin ext') by congruence. apply fins_inj in X. subst ext'. exact N.
Qed.

(** C61, complete call.  If a satisfying assignment [x] is cheaper than every other one (that
    differs on a variable of the formula) by more than the threshold, then from some number of
    iterations on the decisions are [x] and the formula is reported as satisfied, for every filter
    factor below 1. *)
Theorem C61_tree_eventually :
  forall (nv k : nat) (sol : list bool) (ord ord2 ord3 : list nat -> list nat) (draws : list draw)
         (metrics : list Qc) (flag : bool) (alpha theta : Qc) (post_process : bool) (pp : nat)
         (f : formula) (x : list bool),
    2 <= k -> length sol = nv -> Forall (valid_draw nv k) draws -> length metrics = nv ->
    (forall l, Permutation l (ord l)) -> (forall l, Permutation l (ord2 l)) -> (forall l, Permutation l (ord3 l)) ->
    create_formula nv k sol ord draws = Some f -> tree_like (y_conx f) -> (0 <= alpha)%Qc -> (alpha < 1)%Qc ->
    length x = nv -> satisfies (y_conx f) (y_types f) x ->
    (forall y, length y = nv -> satisfies (y_conx f) (y_types f) y ->
       (exists v, In v (y_used f) /\ nth v y false <> nth v x false) ->
       (cost_on (y_used f) metrics x + theta < cost_on (y_used f) metrics y)%Qc /\
       (cost_on (y_used f) metrics x - theta < cost_on (y_used f) metrics y)%Qc) ->
    exists T, forall iters, T <= iters -> exists ext o,
      py_ksat_run nv k sol ord draws (map Fin metrics) iters flag (Fin alpha) (Fin theta) post_process pp ord2 ord3
        = Some (f, map Fin ext, o) /\
      (forall v, In v (y_used f) -> nth_error (k_hd o) v = Some (bit (nth v x false))) /\
      k_flag o = true.
Proof.
  intros nv k sol ord ord2 ord3 draws metrics flag alpha theta post pp f x Hk Ls Hd Lm P1 P2 P3 Ef (idx & P & F) A0 A1 Lx Sx Opt.
  destruct (call_facts nv k sol ord ord2 ord3 draws metrics theta f x) as (M & Sh & Ex & Call); auto.
  destruct Sh as (Em & Lc & Sc & St & SM & Wf & Lv & Ru & Vw & V4 & HM & Hmu). rewrite Lc in P.
  pose proof (proj1 (Forall_forall _ _) Ru) as Ru'. cbn beta in Ru'.
  destruct (eventually (fun w iters => exists ext,
      wrapper_ksat iters nv (y_nc f) (length (y_used f)) (Fin alpha) flag (y_used f) (concat (y_vconx f))
         (map (@length nat) (y_vconx f)) (concat (y_conx f)) (concat (y_types f)) (map Fin metrics) (concat (inj M)) k
         = Some (map Fin ext) /\
      if nth w x false then (nth w ext 0 + nth w metrics 0 < theta)%Qc else (theta < nth w ext 0 + nth w metrics 0)%Qc)
      (y_used f)) as (T & HT).
  { intros w Hw.
    destruct (limit_core nv (y_nc f) k (y_used f) metrics (y_conx f) (y_types f) M (y_vconx f) idx flag alpha (used_cost f metrics))
      with (w := w) as (d & Gd & Ld); auto.
    pose proof (Ex idx w d P Hw Gd) as Mg. destruct (nth w x false).
    - set (g := (theta - (d + nth w metrics 0))%Qc) in *. destruct (small (1 + 1) g) as (e & He & Hge); [discriminate|unfold g; qlra|].
      destruct (Ld e He) as (T & HT). exists T. intros iters Hi. destruct (HT iters Hi) as (ext & E & _ & N1 & N2).
      exists ext. split; [exact E|]. unfold g in Hge. qlra.
    - set (g := (d + nth w metrics 0 - theta)%Qc) in *. destruct (small (1 + 1) g) as (e & He & Hge); [discriminate|unfold g; qlra|].
      destruct (Ld e He) as (T & HT). exists T. intros iters Hi. destruct (HT iters Hi) as (ext & E & _ & N1 & N2).
      exists ext. split; [exact E|]. unfold g in Hge. qlra. }
  exists T. intros iters Hi. specialize (HT iters Hi).
  destruct (run_fsched iters nv (y_nc f) k (y_used f) metrics (y_conx f) (y_types f) M (y_vconx f) idx flag alpha (fun u => nth u metrics 0%Qc))
    as (ext & _ & _ & _ & E & _); auto.
  destruct (Call iters flag alpha post pp ext E) as (o & R).
  - intros w Hw. destruct (HT w Hw) as (ext' & E' & N). rewrite E in E'.
    assert (X : map Fin ext = map Fin ext') by congruence. apply fins_inj in X. subst ext'. exact N.
  - exists ext, o. exact R.
Qed.

(** ** Examples *)

(** The chain of implications of [C58_example] with the default factor 1/2: twelve iterations
    suffice for the decisions, and the outputs are then near 5/2, -3/2, -1, -3/2. *)
Example C61_example :
  (exists T, forall iters, T <= iters -> exists f ext o,
     py_ksat_run 4 2 [true; true; true; true] (fun l => l) chain_draws (map Fin chain_metrics) iters true
       (Fin (Q2Qc (1 # 2))) n0 false 0 (fun l => l) (fun l => l) = Some (f, map Fin ext, o) /\
     (forall v, In v [0; 1; 2; 3] -> nth_error (k_hd o) v = Some n1) /\ k_flag o = true) /\
  map (fun iters => option_map (fun r => let '(_, ext, o) := r in (map view ext, map view (k_hd o), k_flag o))
      (py_ksat_run 4 2 [true; true; true; true] (fun l => l) chain_draws (map Fin chain_metrics) iters true
         (Fin (Q2Qc (1 # 2))) n0 false 0 (fun l => l) (fun l => l))) [3; 5; 12]
  = [Some ([VFin (5 # 4); VFin (-27 # 16); VFin (1 # 8); VFin 0], [VFin 1; VFin 1; VFin 0; VFin 0], false);
     Some ([VFin (15 # 8); VFin (-103 # 64); VFin (-17 # 32); VFin (-13 # 32)], [VFin 1; VFin 1; VFin 1; VFin 0], false);
     Some ([VFin (20307 # 8192); VFin (-12309 # 8192); VFin (-1015 # 1024); VFin (-2967 # 2048)],
           [VFin 1; VFin 1; VFin 1; VFin 1], true)].
Proof.
  split.
  - destruct C58_example as (f & Ef & _ & _ & Hd & Tr & _ & Sx & Opt & _).
    destruct (C61_tree_eventually 4 2 [true; true; true; true] (fun l => l) (fun l => l) (fun l => l) chain_draws
      chain_metrics true (Q2Qc (1 # 2)) 0 false 0 f chain_best) as (T & HT); auto; try (intros; apply Permutation_refl); try discriminate; try reflexivity.
    exists T. intros iters Hi. destruct (HT iters Hi) as (ext & o & E & Hv & Fl). exists f, ext, o.
    split; [exact E|]. split; [|exact Fl]. intros v Iv.
    assert (Eu : y_used f = [0; 1; 3; 2]).
    { clear - Ef. vm_compute in Ef. injection Ef as <-. reflexivity. }
    rewrite Hv; [|rewrite Eu; cbn in *; tauto]. cbn in Iv. intuition subst; reflexivity.
  - vm_compute. reflexivity.
Qed.

(** The limit statement for the solver itself, on the two clauses of [C58_exact_example]. *)
Example C61_limit_example :
  let conx := [[0; 1; 2]; [3; 2; 4]] in
  let types := [[1; -1; 1]; [-1; -1; 1]]%Z in
  let varconx := [[0]; [0]; [0; 1]; [1]; [1]] in
  let metrics := map zq [4; -2; 1; -3; 2]%Z in
  let V0 := map (map zq) [[7; 0; -9; 5; 5]; [1; 1; 1; 0; 8]]%Z in
  let exact := map zq [-2; 3; 0; 1; -1]%Z in
  forall e, (0 < e)%Qc -> exists T, forall iters, T <= iters -> exists ext : list Qc,
    wrapper_ksat iters 5 2 5 (Fin (Q2Qc (1 # 2))) true [0; 1; 2; 3; 4] (concat varconx) (map (@length nat) varconx)
      (concat conx) (concat types) (map Fin metrics) (concat (inj V0)) 3 = Some (map Fin ext) /\
    forall w, w < 5 -> (nth w exact 0 - e <= nth w ext 0 /\ nth w ext 0 <= nth w exact 0 + e)%Qc.
Proof.
  intros conx types varconx metrics V0 exact e He.
  destruct (C61_tree_limit 5 2 3 [0; 1; 2; 3; 4] metrics conx types V0 varconx true (Q2Qc (1 # 2))) as (ex & _ & Hex & L).
  - lia.
  - reflexivity.
  - split; [reflexivity|repeat constructor].
  - split; [reflexivity|repeat constructor].
  - split; [reflexivity|repeat constructor].
  - intros [|[|c]] cx tys H1 H2; cbn in H1, H2; try (destruct c; discriminate);
      injection H1 as <-; injection H2 as <-; unfold clause_wf, pm1;
      repeat split; auto; repeat constructor; auto; cbn; intuition discriminate.
  - reflexivity.
  - repeat constructor.
  - intros x l Hx. split.
    + destruct x as [|[|[|[|[|x]]]]]; cbn in Hx; try (destruct x; discriminate Hx); injection Hx as <-;
        repeat constructor; cbn; intuition discriminate.
    + intros c. destruct x as [|[|[|[|[|x]]]]]; cbn in Hx; try (destruct x; discriminate Hx); injection Hx as <-;
        clear He; destruct c as [|[|[|c]]]; cbn; lia.
  - intros [|[|[|[|[|j]]]]] Hj N; try (exfalso; apply N; cbn; tauto); lia.
  - exists [0; 1]. split; [apply Permutation_refl|]. apply forest_cons with (v := 2); [cbn; auto|leafc|].
    apply forest_cons with (v := 2); [cbn; auto|leafc|constructor].
  - discriminate.
  - reflexivity.
  - destruct (L e He) as (T & HT). exists T. intros iters Hi. destruct (HT iters Hi) as (ext & E & _ & N).
    exists ext. split; [exact E|]. intros w Hw.
    destruct C58_exact_example as (_ & Ge). specialize (Ge w Hw). specialize (Hex w Hw).
    assert (X : nth w exact 0%Qc = nth w ex 0%Qc).
    { pose proof (minsum_message_unique _ _ _ _ _ Ge Hex) as Q. injection Q; auto. }
    rewrite X. apply N, Hw.
Qed.

(** With filter factor 1 the outputs stay 0, so the restriction to factors below 1 is needed. *)
Definition c61_factor_one : Prop :=
  forall (nv k : nat) (sol : list bool) (draws : list draw) (metrics : list Qc) (alpha : Qc) (f : formula) (x : list bool),
    2 <= k -> length sol = nv -> Forall (valid_draw nv k) draws -> length metrics = nv ->
    create_formula nv k sol (fun l => l) draws = Some f -> tree_like (y_conx f) -> (0 <= alpha)%Qc -> (alpha <= 1)%Qc ->
    length x = nv -> satisfies (y_conx f) (y_types f) x ->
    (forall y, length y = nv -> satisfies (y_conx f) (y_types f) y ->
       (exists v, In v (y_used f) /\ nth v y false <> nth v x false) ->
       (cost_on (y_used f) metrics x < cost_on (y_used f) metrics y)%Qc) ->
    exists T, forall iters, T <= iters -> exists ext o,
      py_ksat_run nv k sol (fun l => l) draws (map Fin metrics) iters true (Fin alpha) n0 false 0 (fun l => l) (fun l => l)
        = Some (f, map Fin ext, o) /\ k_flag o = true.
Theorem C61_factor_one_refuted : ~ c61_factor_one.
Proof.
  intros H. destruct C58_example as (f & Ef & _ & _ & Hd & Tr & _ & Sx & Opt & _).
  destruct (H 4 2 [true; true; true; true] chain_draws chain_metrics 1%Qc f chain_best) as (T & HT); auto; try discriminate.
  { intros y L S N. destruct (Opt y L S N) as (A & _). qlra. }
  specialize (HT (T + 1) ltac:(lia)). destruct HT as (ext & o & E & Fl).
  destruct (call_facts 4 2 [true; true; true; true] (fun l => l) (fun l => l) (fun l => l) chain_draws chain_metrics 0 f chain_best)
    as (M & Sh & _ & _); auto; try (intros; apply Permutation_refl).
  destruct Sh as (Em & Lc & Sc & St & SM & Wf & Lv & Ru & Vw & V4 & HM & Hmu).
  destruct (run_fsched (T + 1) 4 (y_nc f) 2 (y_used f) chain_metrics (y_conx f) (y_types f) M (y_vconx f) (seq 0 (y_nc f)) true 1
    (fun u => nth u chain_metrics 0%Qc)) as (ext' & V & R & D & E' & Le & Ff & _ & HX); auto; try apply Permutation_refl.
  change (P_Tsp_Assign.effective true 1) with 1%Qc in Ff.
  assert (Z : forall t c v, In c (seq 0 (y_nc f)) -> D t c v = 0%Qc).
  { intros t c v Hc. destruct (in_dec Nat.eq_dec v (nth c (y_conx f) [])) as [I|I]; [|apply (f_off _ _ _ _ _ _ _ _ _ Ff); auto].
    induction t as [|t IH]; [rewrite (f_first _ _ _ _ _ _ _ _ _ Ff) by auto; ring|].
    rewrite <- Nat.add_1_r, (f_next _ _ _ _ _ _ _ _ _ Ff), IH by auto. ring. }
  assert (Ez : ext' = [0; 0; 0; 0]%Qc).
  { apply nth_ext with (d := 0%Qc) (d' := 0%Qc); [exact Le|]. rewrite Le. intros w Hw. rewrite HX by lia. destruct (Nat.eqb_spec (T + 1) 0); [lia|].
    rewrite qsum_none by (intros c Hc; apply Z, Hc). destruct w as [|[|[|[|w]]]]; try reflexivity; lia. }
  clear - Ef Em E' E Fl Ez. subst ext'. unfold py_ksat_run in E. rewrite Ef in E. cbn [bind] in E. rewrite Em in E. cbn [bind] in E.
  rewrite E' in E. cbn [bind] in E. clear E' Em.
  assert (X : forall o, py_ksat_finish f (fun l => l) (fun l => l) n0 0 false (map Fin chain_metrics) (map Fin [0; 0; 0; 0]%Qc) = Some o ->
    k_flag o = false).
  { clear - Ef. vm_compute in Ef. injection Ef as <-. intros o H. vm_compute in H. injection H as <-. reflexivity. }
  destruct (py_ksat_finish _ _ _ _ _ _ _ _) as [o'|] eqn:Eo; [|discriminate E]. cbn [bind] in E.
  specialize (X o' eq_refl). assert (o' = o) by congruence. subst o'. congruence.
Qed.

Print Assumptions C61_tree_limit.
Print Assumptions C61_tree_eventually.
Print Assumptions C61_factor_one_refuted.
Print Assumptions C61_example.
Print Assumptions C61_limit_example.
