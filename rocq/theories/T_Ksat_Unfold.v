(** * Property C81: what the K-SAT solver computes on any formula. *)
From Coq Require Import Permutation.
From Verif Require Import Num NumFacts Arr ArrFacts Spec SpecRun SpecForest SpecView SpecUnfold MinSum MinSumFacts P_Ksat P_Tsp_Sched P_Tsp_Order.
From Verif Require Import M_Tsp_Run M_Ksat_Py P_Ksat_Py P_Ksat_Gen P_PyRef_Ksat P_Forest P_Forest_Limit P_Ksat_Tree P_Tsp_Assign P_Ksat_Limit P_Ksat_Opt.
From Verif Require Import M_InOut M_Runs P_Runs P_Schedule T_Schedule T_Ksat_Py T_Runs T_PyRef_Run T_Ksat_Tree T_Ksat_Sym P_Ksat_View T_Ksat_View P_Unfold.
Local Open Scope nat_scope.

Lemma network_sound nv f : sound nv f -> forall c, In c (n_all (formula_network f)) ->
  NoDup (n_scope (formula_network f) c) /\ (forall u, In u (n_scope (formula_network f) c) -> u < nv) /\
  forall x y, (forall u, In u (n_scope (formula_network f) c) -> x u = y u) -> n_allows (formula_network f) c x -> n_allows (formula_network f) c y.
Proof.
  intros Sf c _. destruct (Sf c) as (Nd & B & _). split; [exact Nd|]. split; [exact B|]. cbn. intros x y E (w & t & O & Ew).
  exists w, t. split; [exact O|]. rewrite <- E; [exact Ew|]. exact (occurs_row f c w t O).
Qed.
Lemma network_sched nv f a V R D :
  fsched (seq 0 nv) (row f) (holds f) (seq 0 (length (w_conx f))) a V R D (fun u => nth u (w_costs f) 0%Qc) ->
  fsched (seq 0 nv) (n_scope (formula_network f)) (n_allows (formula_network f)) (n_all (formula_network f)) a V R D (n_price (formula_network f)).
Proof.
  intros F. destruct F as [F1 F2 F3 F4 F5]. split; [|exact F2|exact F3|exact F4|exact F5].
  intros t c v Ic Iv. destruct (F1 t c v Ic Iv) as (q1 & q0 & B1 & B0 & E). exists q1, q0.
  split; [|split; [|exact E]]; eapply bst_iff; try eassumption; intros x; apply holds_occurs.
Qed.

(** C81.  For every formula, with or without cycles, every variable and every number of iterations
    without filtering, the value returned is exact for the unfolding of the formula up to that
    distance: the cost of its cheapest labelling with the variable set to 1 minus the cost of the
    cheapest with the variable set to 0.  Both exist. *)
Theorem C81_unfolding :
  forall (f : weighted) (k iters : nat) (alpha : Qc) (used : list nat) (varconx : list (list nat)) (V0 : list (list Qc)),
    2 <= k -> input_ok k used varconx V0 f ->
    exists ext,
      solve iters k false alpha used varconx V0 f = Some (map Fin ext) /\ length ext = length (w_costs f) /\
      forall v, v < length (w_costs f) ->
        exists q1 q0, cheapest (formula_network f) iters v true q1 /\ cheapest (formula_network f) iters v false q0 /\ nth v ext 0%Qc = (q1 - q0)%Qc.
Proof.
  intros f k iters alpha used varconx V0 Hk F.
  destruct (solve_runs iters k false alpha used varconx V0 f Hk F) as (ext & V & R & D & E & Le & Sd & E0 & HX).
  exists ext. split; [exact E|]. split; [exact Le|]. intros v Hv. rewrite HX by auto. destruct iters as [|n].
  - exists 0%Qc, 0%Qc. destruct (unfolding_zero (formula_network f) v) as (Z1 & Z2). split; [exact Z1|]. split; [exact Z2|reflexivity].
  - cbn [Nat.eqb]. replace (S n - 1) with n by lia.
    apply (unfolding_value (length (w_costs f)) (formula_network f)) with (V := V) (Rm := R).
    + apply network_sound. eapply ok_sound; eauto.
    + apply network_sched. exact Sd.
    + intros c u _ I. now apply E0.
Qed.

(** C81, complete call without post-processing: a used variable is set exactly when the cheapest
    labelling of its unfolding that sets it, its own metric included, costs at most the threshold
    more than the cheapest that does not. *)
Theorem C81_call :
  forall (nv k : nat) (sol : list bool) (ord ord2 ord3 : list nat -> list nat) (draws : list draw)
         (metrics : list Qc) (iters : nat) (alpha theta : Qc) (pp : nat),
    2 <= k -> length sol = nv -> Forall (valid_draw nv k) draws -> length metrics = nv ->
    (forall l, Permutation l (ord l)) -> (forall l, Permutation l (ord2 l)) -> (forall l, Permutation l (ord3 l)) ->
    exists f ext o,
      py_ksat_run nv k sol ord draws (map Fin metrics) iters false (Fin alpha) (Fin theta) false pp ord2 ord3
        = Some (f, map Fin ext, o) /\
      let F := {| w_conx := y_conx f; w_types := y_types f; w_costs := metrics |} in
      forall v, In v (y_used f) ->
        exists q1 q0, cheapest (formula_network F) iters v true q1 /\ cheapest (formula_network F) iters v false q0 /\
          (nth_error (k_hd o) v = Some n1 <-> (q1 + nth v metrics 0 <= q0 + theta)%Qc) /\
          (nth_error (k_hd o) v = Some n0 <-> (q0 + theta < q1 + nth v metrics 0)%Qc).
Proof.
  intros nv k sol ord ord2 ord3 draws metrics iters alpha theta pp Hk Ls Hd Lm P1 P2 P3.
  destruct (C47_ksat_call nv k sol ord ord2 ord3 draws metrics iters false alpha (Fin theta) false pp)
    as (f & ext & intr & o & Er & _ & Li & Le & Hi & Hhd & Lh & _ & _); auto.
  exists f, ext, o. split; [exact Er|]. intros F v Iv.
  assert (Ef : create_formula nv k sol ord draws = Some f).
  { unfold py_ksat_run in Er. destruct (create_formula nv k sol ord draws) as [f'|]; [|discriminate]. cbn [bind] in Er.
    destruct (initial_messages nv f' (map Fin metrics)); [|discriminate]. cbn [bind] in Er.
    destruct (wrapper_ksat _ _ _ _ _ _ _ _ _ _ _ _ _ _); [|discriminate]. cbn [bind] in Er.
    destruct (py_ksat_finish _ _ _ _ _ _ _ _); [|discriminate]. cbn [bind] in Er. congruence. }
  destruct (call_basics nv k sol ord ord2 ord3 draws metrics theta f) as (_ & M & Sh & _); auto.
  destruct Sh as (Em & Lc & Sc & St & SM & Wf & Lv & Ru & Vw & V4 & HM & _).
  pose proof (proj1 (Forall_forall _ _) Ru v Iv) as Hv. cbn beta in Hv.
  assert (Iok : input_ok k (y_used f) (y_vconx f) M F).
  { unfold input_ok, formula_ok, F. cbn [w_conx w_types w_costs]. rewrite Lm, Lc. split; [|auto].
    split; [exact Sc|]. split; [exact St|]. split; [exact Wf|]. split; [exact Lv|]. split; [exact Ru|]. split; [exact Vw|exact V4]. }
  destruct (C81_unfolding F k iters alpha (y_used f) (y_vconx f) M Hk Iok) as (ext' & E & _ & HQ).
  unfold solve, F in E. cbn [w_conx w_types w_costs] in E. rewrite Lm, Lc in E.
  assert (X : ext' = ext).
  { unfold py_ksat_run in Er. rewrite Ef in Er. cbn [bind] in Er. rewrite Em in Er. cbn [bind] in Er. rewrite E in Er. cbn [bind] in Er.
    destruct (py_ksat_finish _ _ _ _ _ _ _ _); [|discriminate]. cbn [bind] in Er. apply fins_inj. congruence. }
  subst ext'. destruct (HQ v) as (q1 & q0 & C1 & C0 & Ev); [cbn; lia|]. exists q1, q0. split; [exact C1|]. split; [exact C0|].
  rewrite (Hhd (or_introl eq_refl)). rewrite !nth_error_map, (nth_error_nth' _ 0%Qc) by lia. cbn [option_map].
  rewrite Hi, (proj2 (mem_In _ _) Iv), Ev by auto. unfold py_decide, nleb, ngt. cbn [nlt].
  destruct (qltb theta (q1 - q0 + nth v metrics 0)%Qc) eqn:T; cbn [negb].
  - apply qltb_true in T. split; split; intros H; try discriminate; try reflexivity; qlra.
  - apply qltb_false in T. split; split; intros H; try discriminate; try reflexivity; qlra.
Qed.

(** ** Examples *)

(** The three clauses in a circle of C80_example: what one iteration gives for variable 1, computed
    from the unfolding (0 or 1 with a copy of 0, 1 implies 2 with a copy of 2), and the values after
    more iterations, when the walks go round the circle. *)
Example C81_example :
  input_ok 2 [0; 1; 2] circle_vconx circle_V0 circle /\
  cheapest (formula_network circle) 1 1 true (zq (-2)) /\ cheapest (formula_network circle) 1 1 false (zq 2) /\
  map (fun iters => option_map (map view) (solve iters 2 false 0 [0; 1; 2] circle_vconx circle_V0 circle)) [1; 2; 7]
    = [Some [VFin (-1); VFin (-4); VFin 0]; Some [VFin (-1); VFin (-4); VFin (-3)]; Some [VFin (-1); VFin (-4); VFin (-3)]].
Proof.
  split; [apply circle_ok|]. split; [|split; [|vm_compute; reflexivity]].
  - split.
    + exists (fun p => match p with [(0, 0)] => false | _ => true end). split; [reflexivity|]. split; [|vm_compute; reflexivity].
      intros c Hc. cbn in Hc. in_list Hc; (split; [|intros w _; exact I]).
      * exists 1, 1%Z. split; [exists 1; split; reflexivity|reflexivity].
      * exists 2, 1%Z. split; [exists 1; split; reflexivity|reflexivity].
    + intros a Ha H. destruct (H 1) as (T & _); [cbn; auto|]. destruct T as (w & t & (j & J1 & J2) & E).
      cbn -[zq]. unfold after. destruct (a [(0, 0)]) eqn:A0, (a [(1, 2)]) eqn:A2; try (vm_compute; discriminate).
      all: exfalso; destruct j as [|[|j]]; cbn in J1, J2; [| |destruct j; discriminate]; injection J1 as <-; injection J2 as <-; cbn in E; congruence.
  - split.
    + exists (fun p => match p with [] => false | _ => true end). split; [reflexivity|]. split; [|vm_compute; reflexivity].
      intros c Hc. cbn in Hc. in_list Hc; (split; [|intros w _; exact I]).
      * exists 0, 1%Z. split; [exists 0; split; reflexivity|reflexivity].
      * exists 1, (-1)%Z. split; [exists 0; split; reflexivity|reflexivity].
    + intros a Ha H. destruct (H 0) as (T & _); [cbn; auto|]. destruct T as (w & t & (j & J1 & J2) & E).
      cbn -[zq]. unfold after. destruct (a [(0, 0)]) eqn:A0, (a [(1, 2)]) eqn:A2; try (vm_compute; discriminate).
      all: exfalso; destruct j as [|[|j]]; cbn in J1, J2; [| |destruct j; discriminate]; injection J1 as <-; injection J2 as <-; cbn in E; congruence.
Qed.

Print Assumptions C81_unfolding.
Print Assumptions C81_call.
