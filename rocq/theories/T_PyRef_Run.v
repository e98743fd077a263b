(** * Property C55: whole runs of the pure Python solvers and of the C++ library agree.

    K-SAT and KC-MWM.  The full statements (all instances, all settings) are written out, refuted,
    and proved under the extra hypotheses ([_partial]). *)
From Verif Require Import Num NumFacts Arr ArrFacts Spec SpecRun MinSum MinSumFacts.
From Verif Require Import M_Kc_Trellis P_Tsp_Constraints P_Kc_Trellis M_Ksat P_Ksat M_Equality P_Equality M_Filter P_Filter M_InOut P_InOut.
From Verif Require Import M_Knapsack P_Knapsack P_Team_Knapsack M_Runs P_Runs P_Schedule P_Kc_Run T_InOut.
From Verif Require Import M_Tsp_Run M_Ksat_Py P_Ksat_Py P_Ksat_Gen.
From Verif Require Import M_PyRef M_PyRef_Kc M_PyRef_Ksat M_PyRef_Run P_PyRef P_PyRef_Kc P_PyRef_Ksat P_PyRef_Run.
From Coq Require Import Permutation.
Local Open Scope nat_scope.

(** ** K-SAT *)

(** the C++ solver, called as the Python package calls it: extrinsic output, intrinsic output and
    decisions of the package *)
Definition package_ksat (nv k : nat) (f : formula) (metrics : list num) (iters : nat) (flag : bool)
  (alpha thr : num) : option (list num * list num * list num) :=
  m <- initial_messages nv f metrics ;;
  ext <- wrapper_ksat iters nv (y_nc f) (length (y_used f)) alpha flag (y_used f) (concat (y_vconx f))
           (map (@length nat) (y_vconx f)) (concat (y_conx f)) (concat (y_types f)) metrics (concat m) k ;;
  intr <- py_ksat_intrinsic f metrics ext ;;
  Some (ext, intr, map (py_decide thr) intr).
Definition reference_ksat (nv : nat) (f : formula) (metrics : list num) (iters : nat) (flag : bool)
  (alpha thr : num) : option (list num * list num * list num) :=
  py_ksat_reference iters flag alpha thr nv (y_nc f) (y_conx f) (y_types f) (y_used f) (y_vconx f) metrics.

Definition c55_ksat : Prop :=
  forall (nv k : nat) (sol : list bool) (ord : list nat -> list nat) (draws : list draw)
         (metrics : list Qc) (iters : nat) (flag : bool) (alpha : Qc) (thr : num),
    2 <= k -> length sol = nv -> Forall (valid_draw nv k) draws -> length metrics = nv ->
    (forall l, Permutation l (ord l)) ->
    exists f r, create_formula nv k sol ord draws = Some f /\
      package_ksat nv k f (map Fin metrics) iters flag (Fin alpha) thr = Some r /\
      reference_ksat nv f (map Fin metrics) iters flag (Fin alpha) thr = Some r.

Lemma base_facts nv k f : 2 <= k -> consistent nv f ->
  Forall (fun r => length r = k /\ NoDup r) (y_conx f) -> (forall v, v < nv -> NoDup (nth v (y_vconx f) [])) ->
  (forall c cx tys, get (y_conx f) c = Some cx -> get (y_types f) c = Some tys -> clause_wf nv k cx tys) /\
  shape (y_nc f) k (y_conx f) /\ shape (y_nc f) k (y_types f) /\
  (forall x l, get (y_vconx f) x = Some l -> Forall (fun c => c < y_nc f) l) /\
  (forall x l, get (y_vconx f) x = Some l -> NoDup l) /\
  (forall c cx x l, get (y_conx f) c = Some cx -> In x cx -> get (y_vconx f) x = Some l -> In c l) /\
  (forall j, j < nv -> ~ In j (y_used f) -> nth j (y_vconx f) [] = []).
Proof.
  intros Hk W Qs Qo.
  assert (Wf : forall c cx tys, nth_error (y_conx f) c = Some cx -> nth_error (y_types f) c = Some tys ->
     clause_wf nv k cx tys).
  { intros c cx tys H1 H2. pose proof (nth_error_In _ _ H1) as I1.
    apply (proj1 (Forall_forall _ _) Qs) in I1. destruct I1 as [I1 I2].
    destruct (c_rows _ _ W _ _ H1) as (ts & T1 & T2). assert (ts = tys) by congruence. subst ts.
    destruct (row_at nv f c W) as (r & Er & Fr).
    { rewrite <- (c_conx _ _ W). apply nth_error_Some. congruence. }
    assert (r = cx) by congruence. subst r.
    split; [auto|split; [congruence|split; [auto|split; [auto|]]]].
    apply Forall_forall. intros t Ht. apply In_nth_error in Ht. destruct Ht as [j Hj].
    destruct (nth_error cx j) as [v|] eqn:Ev.
    2:{ apply nth_error_None in Ev. assert (j < length tys) by (apply nth_error_Some; congruence). lia. }
    apply (c_sign _ _ W c v t). exists j. unfold get2, get. rewrite H1, H2. auto. }
  split; [exact Wf|]. split.
  { split; [apply (c_conx _ _ W)|]. eapply Forall_impl; [|apply Qs]. intros r [H _]; auto. }
  split.
  { split; [apply (c_types _ _ W)|]. apply Forall_forall. intros ts Hts. apply In_nth_error in Hts.
    destruct Hts as [c Hc]. destruct (nth_error (y_conx f) c) as [r|] eqn:Er.
    - destruct (Wf c r ts Er Hc) as (_ & K & _). auto.
    - apply nth_error_None in Er. rewrite (c_conx _ _ W), <- (c_types _ _ W) in Er.
      assert (c < length (y_types f)) by (apply nth_error_Some; congruence). lia. }
  split.
  { intros x l Hx. apply Forall_forall. intros c Hc. apply In_nth_error in Hc. destruct Hc as [j Hj].
    destruct (c_vrows _ _ W _ _ Hx) as (ts & T1 & T2).
    destruct (nth_error ts j) as [t|] eqn:Et.
    2:{ apply nth_error_None in Et. assert (j < length l) by (apply nth_error_Some; congruence). lia. }
    assert (I : in_variable f c x t) by (exists j; unfold get2, get; unfold get in Hx; rewrite Hx, T1; auto).
    apply (c_same _ _ W) in I. destruct I as (i & I & _). unfold get2 in I.
    destruct (get (y_conx f) c) eqn:Ec; [|discriminate]. apply get_Some_lt in Ec. rewrite (c_conx _ _ W) in Ec. auto. }
  split.
  { intros x l Hx. unfold get in Hx. rewrite <- (nth_error_nth _ _ [] Hx). apply Qo.
    rewrite <- (c_vconx _ _ W). apply nth_error_Some. congruence. }
  split.
  { intros c cx x l Hc Ix Hx. apply In_nth_error in Ix as [j Hj]. destruct (c_rows _ _ W _ _ Hc) as (ts & T1 & T2).
    destruct (nth_error ts j) as [t|] eqn:Et.
    2:{ apply nth_error_None in Et. assert (j < length cx) by (apply nth_error_Some; congruence). lia. }
    assert (I : in_clause f c x t) by (exists j; unfold get2, get; unfold get in Hc; rewrite Hc, T1; auto).
    apply (c_same _ _ W) in I. destruct I as (i & I & _). unfold get2 in I. rewrite Hx in I. cbn [bind] in I.
    exact (nth_error_In _ _ I). }
  intros j Hj Hu. destruct (nth j (y_vconx f) []) as [|c l] eqn:En; auto. destruct Hu.
  assert (Hx : nth_error (y_vconx f) j = Some (c :: l)).
  { rewrite <- En. apply nth_error_nth'. rewrite (c_vconx _ _ W). auto. }
  destruct (c_vrows _ _ W _ _ Hx) as ([|t ts] & T1 & T2); [discriminate|].
  apply (c_used _ _ W c j t). apply (c_same _ _ W). exists 0. unfold get2, get. rewrite Hx, T1. auto.
Qed.

Lemma consistent_facts nv k sol f : 2 <= k -> consistent nv f -> clauses_ok nv k sol f ->
  (forall c cx tys, get (y_conx f) c = Some cx -> get (y_types f) c = Some tys -> clause_wf nv k cx tys) /\
  shape (y_nc f) k (y_conx f) /\ shape (y_nc f) k (y_types f) /\
  (forall x l, get (y_vconx f) x = Some l -> Forall (fun c => c < y_nc f) l) /\
  (forall x l, get (y_vconx f) x = Some l -> NoDup l) /\
  (forall c cx x l, get (y_conx f) c = Some cx -> In x cx -> get (y_vconx f) x = Some l -> In c l) /\
  (forall j, j < nv -> ~ In j (y_used f) -> nth j (y_vconx f) [] = []).
Proof. intros Hk W Q. exact (base_facts nv k f Hk W (q_size _ _ _ _ Q) (q_once _ _ _ _ Q)). Qed.

Lemma ksat_runs_agree nv k f metrics iters flag alpha thr : 2 <= k -> consistent nv f ->
  Forall (fun r => length r = k /\ NoDup r) (y_conx f) -> (forall v, v < nv -> NoDup (nth v (y_vconx f) [])) ->
  NoDup (y_used f) -> length metrics = nv -> (flag = true -> alpha <> 0%Qc) ->
  exists r, package_ksat nv k f (map Fin metrics) iters flag (Fin alpha) thr = Some r /\
      reference_ksat nv f (map Fin metrics) iters flag (Fin alpha) thr = Some r /\ length (snd r) = nv.
Proof.
  intros Hk W Qs Qo N Lm Ha. unfold package_ksat, reference_ksat, py_ksat_reference.
  rewrite py_ksat_initial_eq by (rewrite (c_conx _ _ W); auto).
  destruct (initial_messages_ok nv f metrics W Lm) as (M & Em & SM & _). rewrite Em. cbn [bind].
  destruct (base_facts nv k f Hk W Qs Qo) as (Wf & S1 & S2 & V1 & V2 & V3 & V4).
  unfold wrapper_ksat. rewrite C26_ksat_inputs; auto using P_Tsp_Constraints.shape_inj;
    [|rewrite map_length; auto|apply (c_vconx _ _ W)].
  cbn [bind].
  destruct (ksat_run_same nv (y_nc f) k flag alpha (y_conx f) (y_types f) (y_used f) metrics (y_vconx f) (inj M))
    with (iters := iters) (M0 := M) as (p & s & q & E1 & E2 & E3 & Lq & _); auto.
  { apply (c_conx _ _ W). } { apply (c_types _ _ W). } { apply (c_vconx _ _ W). } { apply (c_range _ _ W). }
  rewrite E1, E2. cbn [bind]. rewrite E3.
  destruct (intrinsic_ok nv f metrics q W N Lm Lq) as (intr & Ei & Li & Hi). rewrite Ei. cbn [bind].
  exists (map Fin q, map Fin intr, map (py_decide thr) (map Fin intr)). split; [auto|].
  split; [|cbn; rewrite !map_length; exact Li].
  rewrite used_costs_ok by (auto; apply (c_range _ _ W)). cbn [bind].
  rewrite np_add_Fin by (rewrite scatter_length; auto). cbn [bind].
  assert (qplus q (scatter nv (y_used f) (fun v => nth v metrics 0%Qc)) = intr) as ->; auto.
  apply nth_ext with (d := 0%Qc) (d' := 0%Qc).
  { rewrite qplus_length, scatter_length. lia. }
  intros v Hv. rewrite qplus_length, scatter_length in Hv. rewrite nth_qplus by (rewrite ?scatter_length; lia).
  rewrite scatter_nth, Hi by lia. reflexivity.
Qed.

(** C55, K-SAT: on every random instance, for any number of iterations, the pure Python solver and
    the package give the same extrinsic output, the same intrinsic output and the same decisions *)
Theorem C55_ksat_runs_partial :
  forall (nv k : nat) (sol : list bool) (ord : list nat -> list nat) (draws : list draw)
         (metrics : list Qc) (iters : nat) (flag : bool) (alpha : Qc) (thr : num),
    2 <= k -> length sol = nv -> Forall (valid_draw nv k) draws -> length metrics = nv ->
    (forall l, Permutation l (ord l)) ->
    (* missing: filtering with [alpha = 0], where Python raises *)
    (flag = true -> alpha <> 0%Qc) ->
    exists f r, create_formula nv k sol ord draws = Some f /\
      package_ksat nv k f (map Fin metrics) iters flag (Fin alpha) thr = Some r /\
      reference_ksat nv f (map Fin metrics) iters flag (Fin alpha) thr = Some r.
Proof.
  intros nv k sol ord draws metrics iters flag alpha thr Hk Ls Hd Lm Hp Ha.
  destruct (create_formula_ok nv k sol ord draws) as (f & E & W & Q & N & _); auto; [lia|].
  destruct (ksat_runs_agree nv k f metrics iters flag alpha thr Hk W (q_size _ _ _ _ Q) (q_once _ _ _ _ Q) N Lm Ha) as (r & R1 & R2 & _).
  exists f, r. auto.
Qed.
(** filtering with [alpha = 0]: Python has no branch for it, C++ does not filter *)
Definition d2 (a i : nat) (s : bool) : draw := {| d_first := a; d_rest := [(i, s)] |}.
Definition sample_draws : list draw := [d2 0 2 false; d2 3 0 true; d2 1 1 true; d2 2 1 false].
Lemma sample_draws_valid : Forall (valid_draw 4 2) sample_draws.
Proof.
  repeat constructor; cbn; try lia; intros [|[|j]] i s H; try discriminate; cbn in H; injection H as <- <-; lia.
Qed.
Theorem C55_ksat_runs_refuted : ~ c55_ksat.
Proof.
  intros H.
  destruct (H 4 2 [true; false; true; false] (fun l => l) sample_draws (map zq [3; -4; 1; -2]%Z) 1 true 0%Qc n0)
    as (f & r & E & _ & E2); auto using sample_draws_valid.
  vm_compute in E. injection E as <-. vm_compute in E2. discriminate.
Qed.
Example C55_ksat_example :
  Forall (valid_draw 4 2) sample_draws /\
  option_map (fun f => option_map (fun r => let '(ext, intr, hd) := r in (map view ext, map view intr, map view hd))
    (reference_ksat 4 f (map Fin (map zq [3; -4; 1; -2]%Z)) 2 true (Fin (Q2Qc (1 # 2))) n0))
    (create_formula 4 2 [true; false; true; false] (fun l => l) sample_draws)
  = Some (Some ([VFin (-3 # 2); VFin (3 # 4); VFin (-3); VFin (9 # 4)],
                [VFin (3 # 2); VFin (-13 # 4); VFin (-2); VFin (1 # 4)],
                [VFin 0; VFin 1; VFin 1; VFin 0])).
Proof. split; [exact sample_draws_valid|vm_compute; reflexivity]. Qed.

(** ** KC-MWM *)

(** the C++ solver, called as the Python package calls it: extrinsic output of the teams, their
    intrinsic output and the intrinsic output of the pairs, row after row *)
Definition package_kc (T D P : nat) (W : list (list nat)) (R : list (list num)) (reward : list num)
  (caps : list nat) (iters : nat) (flag : bool) (alpha : num) : option (list num * list num * list num) :=
  let nz := py_nonzero W in
  ' (ext, pairs) <- wrapper_kc_mwm iters D T P (concat (py_team_messages W reward)) caps
        reward (concat R) (concat W) (concat (py_pad nz)) (map (@length nat) nz)
        (list_max (map (@length nat) nz)) flag alpha ;;
  Some (ext, zip_with nadd ext reward, pairs).
Definition reference_kc (T D P : nat) (W : list (list nat)) (R : list (list num)) (reward : list num)
  (caps : list nat) (iters : nat) (flag : bool) (alpha : num) : option (list num * list num * list num) :=
  ' (ext, intr, pairs) <- py_kc_reference iters flag alpha T D P caps W reward R ;;
  Some (ext, intr, concat pairs).

(** departments with at least one team, weights within the capacity, at most two departments per
    team *)
Definition kc_instance (T D P : nat) (W : list (list nat)) (R : list (list Qc)) (reward : list Qc)
  (caps : list nat) : Prop :=
  shape D T W /\ shape P T R /\ length reward = T /\ length caps = D /\
  (forall d ws, nth_error W d = Some ws -> exists t w, nth_error ws t = Some w /\ w <> 0) /\
  (forall d ws cap, nth_error W d = Some ws -> nth_error caps d = Some cap -> Forall (fun w => w <= cap) ws) /\
  (forall d1 d2 d3 t, d1 < d2 < d3 -> d3 < D ->
     nth t (nth d1 W []) 0 = 0 \/ nth t (nth d2 W []) 0 = 0 \/ nth t (nth d3 W []) 0 = 0).
Definition c55_kc : Prop :=
  forall (T D P : nat) (W : list (list nat)) (R : list (list Qc)) (reward : list Qc) (caps : list nat)
         (iters : nat) (flag : bool) (alpha : Qc),
    kc_instance T D P W R reward caps -> 2 <= P -> 2 <= T -> D <> 0 ->
    exists r, package_kc T D P W (inj R) (map Fin reward) caps iters flag (Fin alpha) = Some r /\
      reference_kc T D P W (inj R) (map Fin reward) caps iters flag (Fin alpha) = Some r.

Lemma py_kc_initial_ok T D W reward : shape D T W -> length reward = T ->
  exists K, py_kc_initial T D W (map Fin reward) = Some (inj K) /\ shape D T K /\
    forall d t, d < D -> t < T -> qat K d t = if takes_part W d t then nth t reward 0%Qc else 0%Qc.
Proof.
  intros HW Hr. unfold py_kc_initial.
  set (val := fun d t => Fin (if takes_part W d t then nth t reward 0%Qc else 0%Qc)).
  assert (Wat : forall d t, d < D -> t < T -> get2 W d t = Some (nth t (nth d W []) 0)).
  { intros d t Hd Ht. unfold get2, get. rewrite (nth_error_nth' W [] (n := d)) by (destruct HW; lia). cbn [bind].
    apply nth_error_nth'. destruct HW as [L F]. rewrite Forall_forall in F. rewrite (F (nth d W [])); [auto|]. apply nth_In; lia. }
  match goal with |- context [for_up 0 D ?st0 ?bd] =>
    destruct (for_up_ind 0 D st0 bd (fun i m => shape D T m /\
      forall d t, d < D -> t < T -> get2 m d t = Some (if d <? i then val d t else n0))) as (m & E & S & G) end.
  - lia.
  - split; [apply shape_repeat|]. intros d t Hd Ht. cbn [Nat.ltb Nat.leb]. apply get2_repeat; auto.
  - intros i m Hi (S & G).
    match goal with |- context [for_up 0 T ?st0 ?bd] =>
      destruct (for_up_ind 0 T st0 bd (fun j m => shape D T m /\
        forall d t, d < D -> t < T -> get2 m d t = Some (if (d <? i) || ((d =? i) && (t <? j)) then val d t else n0)))
        as (m' & E & S' & G') end.
    + lia.
    + split; auto. intros d t Hd Ht. rewrite G by auto. destruct (d <? i), (d =? i), (t <? 0) eqn:X; try reflexivity;
        apply Nat.ltb_lt in X; lia.
    + intros j a Hj (Sa & Ga). rewrite Wat by lia. cbn [bind].
      destruct (Nat.eqb_spec (nth j (nth i W []) 0) 0) as [Z|Z].
      * eexists; split; [reflexivity|]. split; auto. intros d t Hd Ht. rewrite Ga by auto. f_equal.
        destruct (Nat.ltb_spec d i); cbn [orb]; auto. destruct (Nat.eqb_spec d i) as [->|]; cbn [andb]; auto.
        destruct (Nat.ltb_spec t j), (Nat.ltb_spec t (j + 1)); auto; [lia|].
        assert (t = j) by lia. subst t. unfold val, takes_part. rewrite Z. reflexivity.
      * rewrite (get_mapFin _ _ T) by (auto; lia). cbn [bind].
        rewrite (set2_lt D T) by (auto; lia). eexists; split; [reflexivity|]. split; [apply shape_upd2; auto|].
        intros d t Hd Ht. rewrite (get2_upd2 D T) by (auto; lia). rewrite Ga by auto.
        destruct (Nat.eqb_spec i d) as [<-|N].
        -- destruct (Nat.eqb_spec j t) as [<-|N]; cbn [andb].
           ++ rewrite Nat.ltb_irrefl, Nat.eqb_refl. cbn [orb andb]. destruct (Nat.ltb_spec j (j + 1)); [|lia].
              unfold val, takes_part. apply Nat.eqb_neq in Z. rewrite Z. reflexivity.
           ++ f_equal. rewrite Nat.ltb_irrefl, Nat.eqb_refl. cbn [orb andb].
              destruct (Nat.ltb_spec t j), (Nat.ltb_spec t (j + 1)); auto; lia.
        -- cbn [andb]. f_equal. destruct (Nat.eqb_spec d i); [congruence|]. cbn [andb]. reflexivity.
    + exists m'. split; auto. split; auto. intros d t Hd Ht. rewrite G' by auto. f_equal.
      destruct (Nat.ltb_spec t T); [|lia]. rewrite andb_true_r.
      destruct (Nat.ltb_spec d i), (Nat.eqb_spec d i), (Nat.ltb_spec d (i + 1)); cbn [orb]; auto; lia.
  - rewrite E.
    assert (F : finm D T m).
    { apply finm_of; auto. intros d t Hd Ht. rewrite G by auto. destruct (Nat.ltb_spec d D); [|lia]. unfold val. eauto. }
    destruct F as (K & SK & ->). exists K. split; auto. split; auto. intros d t Hd Ht.
    pose proof (G d t Hd Ht) as X. rewrite (get2_inj D T) in X by auto. destruct (Nat.ltb_spec d D); [|lia].
    unfold val in X. injection X as ->. reflexivity.
Qed.

Lemma kc_runs_agree (T D P : nat) (W : list (list nat)) (R : list (list Qc)) (reward : list Qc) (caps : list nat)
         (iters : nat) (flag : bool) (alpha : Qc) :
    kc_instance T D P W R reward caps -> 2 <= P -> 2 <= T -> D <> 0 ->
    P <> T -> 1 <= iters -> (flag = true -> alpha <> 0%Qc) ->
    (forall i st, 1 <= i <= iters ->
       py_kc_iterate i flag (Fin alpha) T D P caps W (map Fin reward) (inj R) = Some st ->
       Forall (fun v => nleb v (zn 1000000) = true) (kp_oric2team st)) ->
    exists ext intr pairs,
      package_kc T D P W (inj R) (map Fin reward) caps iters flag (Fin alpha) = Some (ext, intr, concat pairs) /\
      py_kc_reference iters flag (Fin alpha) T D P caps W (map Fin reward) (inj R) = Some (ext, intr, pairs) /\
      shape P T pairs.
Proof.
  intros (HW & HR & Hr & Hc & Hp & Hfit & Htwo) HP HT HD HPT Hit Ha Hsm.
  unfold package_kc, wrapper_kc_mwm, py_kc_reference. set (nz := py_nonzero W).
  destruct (C26_kc_inputs T D P W (inj R) (map Fin reward) caps) as (inp & E & A1 & A2 & A3 & A4 & A5 & A6 & A7);
    auto using P_Tsp_Constraints.shape_inj.
  { rewrite map_length; auto. }
  cbn zeta in E. fold nz in E. rewrite E; cbn [bind].
  destruct (py_kc_initial_ok T D W reward HW Hr) as (K & EK & SK & HK).
  assert (Et : kc_team2knapsack inp = inj K).
  { apply (shape_ext D T); auto using P_Tsp_Constraints.shape_inj. intros d t Hd Ht.
    destruct (ArrFacts.get2_lt _ _ _ d t HW Hd Ht) as [w Gw].
    rewrite (A7 d t w (Fin (nth t reward 0%Qc)) Gw).
    2:{ apply (P_Equality.get_mapFin _ _ T); auto. }
    assert (Ew : nth t (nth d W []) 0 = w).
    { unfold get2 in Gw. destruct (get W d) as [r|] eqn:G1; [|discriminate]. cbn [bind] in Gw.
      unfold get in G1, Gw. rewrite (nth_error_nth _ _ _ G1). apply nth_error_nth; exact Gw. }
    rewrite (get2_inj D T), HK by auto. unfold takes_part. rewrite Ew. destruct (w =? 0); reflexivity. }
  assert (Ei : inp = {| kc_reward_team := map Fin reward; kc_team2knapsack := inj K;
      kc_weights := W; kc_reward_project := inj R; kc_max_state := caps; kc_nonzero := map (participants T) W |}).
  { destruct inp; cbn in *; subst; reflexivity. }
  rewrite Ei. assert (En : nz = map (participants T) W).
  { unfold nz, py_nonzero. apply map_ext_in. intros r Hin. unfold participants.
    destruct HW as [L F]. rewrite Forall_forall in F. rewrite (F r Hin). reflexivity. }
  rewrite En.
  assert (In_part : forall d t, d < D -> In t (nth d (map (participants T) W) []) -> nth t (nth d W []) 0 <> 0).
  { intros d t Hd Hin.
    rewrite (nth_indep _ [] (participants T [])) in Hin by (rewrite map_length; destruct HW; lia).
    rewrite map_nth in Hin. unfold participants in Hin. apply filter_In in Hin. destruct Hin as [_ Hin].
    apply negb_true_iff, Nat.eqb_neq in Hin. exact Hin. }
  destruct (kc_run_same T D P flag alpha W R reward caps (inj K)) with (iters := iters) (K := K)
    as (p & s & ext & E1 & E2 & E3 & E4 & E5 & E6); auto.
  { intros d ws Hd. destruct (Hp d ws Hd) as (t & w & Gt & Nw).
    assert (Lw : length ws = T) by (eapply shape_row; eauto).
    intros X. assert (I : In t (participants T ws)); [|rewrite X in I; destruct I].
    unfold participants. apply filter_In. assert (t < length ws) by (apply nth_error_Some; congruence).
    split; [apply in_seq; lia|]. rewrite (nth_error_nth _ _ _ Gt). apply negb_true_iff, Nat.eqb_neq; auto. }
  { intros d1 d2 d3 l H1 H2 H3 I1 I2 I3. apply In_part in I1, I2, I3; auto.
    destruct (Nat.eq_dec d1 d2); auto. destruct (Nat.eq_dec d1 d3); auto. destruct (Nat.eq_dec d2 d3); auto. exfalso.
    assert (Srt : exists a b c, a < b < c /\ c < D /\ nth l (nth a W []) 0 <> 0 /\ nth l (nth b W []) 0 <> 0 /\ nth l (nth c W []) 0 <> 0).
    { destruct (Nat.lt_total d1 d2) as [|[|]], (Nat.lt_total d1 d3) as [|[|]], (Nat.lt_total d2 d3) as [|[|]]; try lia;
        first [exists d1, d2, d3; repeat split; auto; lia | exists d1, d3, d2; repeat split; auto; lia
             | exists d2, d1, d3; repeat split; auto; lia | exists d2, d3, d1; repeat split; auto; lia
             | exists d3, d1, d2; repeat split; auto; lia | exists d3, d2, d1; repeat split; auto; lia]. }
    destruct Srt as (a & b & c & Hab & Hc' & N1 & N2 & N3). destruct (Htwo a b c l Hab Hc') as [|[|]]; auto. }
  { intros d x Hd Hx Z. rewrite HK by auto. unfold takes_part. rewrite Z. reflexivity. }
  { intros i q Hi Eq. apply (Hsm i q); [lia|]. unfold py_kc_iterate. rewrite EK. exact Eq. }
  unfold py_kc_iterate. rewrite EK. cbn [bind]. rewrite E1, E2. cbn [bind].
  rewrite E5 by lia. cbn [bind]. unfold np_add. rewrite map_length, E6, Hr, Nat.eqb_refl. cbn [bind].
  rewrite E3. do 3 eexists. split; [reflexivity|]. split; [reflexivity|exact E4].
Qed.
(** C55, KC-MWM: the pure Python solver and the package give the same extrinsic and intrinsic
    outputs *)
Theorem C55_kc_runs_partial :
  forall (T D P : nat) (W : list (list nat)) (R : list (list Qc)) (reward : list Qc) (caps : list nat)
         (iters : nat) (flag : bool) (alpha : Qc),
    kc_instance T D P W R reward caps -> 2 <= P -> 2 <= T -> D <> 0 ->
    (* missing: as many projects as teams, where Python uses another project constraint; no
       iteration, where Python has no result; filtering with [alpha = 0], where Python raises; a
       message of a coupling constraint above the constant 1000000, where C++ cuts it off *)
    P <> T -> 1 <= iters -> (flag = true -> alpha <> 0%Qc) ->
    (forall i st, 1 <= i <= iters ->
       py_kc_iterate i flag (Fin alpha) T D P caps W (map Fin reward) (inj R) = Some st ->
       Forall (fun v => nleb v (zn 1000000) = true) (kp_oric2team st)) ->
    exists r, package_kc T D P W (inj R) (map Fin reward) caps iters flag (Fin alpha) = Some r /\
      reference_kc T D P W (inj R) (map Fin reward) caps iters flag (Fin alpha) = Some r.
Proof.
  intros T D P W R reward caps iters flag alpha H1 H2 H3 H4 H5 H6 H7 H8.
  destruct (kc_runs_agree T D P W R reward caps iters flag alpha) as (ext & intr & pairs & E1 & E2 & _); auto.
  eexists. split; [exact E1|]. unfold reference_kc. rewrite E2. reflexivity.
Qed.

(** the four missing cases *)
Definition kcW : list (list nat) := [[2; 1; 0]; [0; 1; 2]].
Definition kcR (z : Z) : list (list Qc) := map (map zq) [[z; -1; -2]; [-3; -5; -1]]%Z.
Definition kc_reward3 : list Qc := map zq [-1; -2; -3]%Z.
Lemma kc_instance3 R : shape 2 3 R -> kc_instance 3 2 2 kcW R kc_reward3 [3; 2].
Proof.
  intros HR. unfold kc_instance. split; [repeat constructor|]. split; [auto|]. split; [reflexivity|].
  split; [reflexivity|]. split; [|split].
  - intros [|[|d]] ws H; cbn in H; [injection H as <-; exists 0, 2; auto|injection H as <-; exists 1, 1; auto|destruct d; discriminate].
  - intros [|[|d]] ws cap H1 H2; cbn in H1, H2; [| |destruct d; discriminate]; injection H1 as <-; injection H2 as <-; repeat constructor.
  - intros; lia.
Qed.
Theorem C55_kc_runs_refuted : ~ c55_kc.
Proof.
  intros H. destruct (H 3 2 2 kcW (kcR (-4)%Z) kc_reward3 [3; 2] 0 false 0%Qc) as (r & _ & E); auto.
  - apply kc_instance3. repeat constructor.
  - vm_compute in E. discriminate.
Qed.
(** also with at least one iteration and without filtering *)
Definition kc_differ (T D P : nat) (W : list (list nat)) (R : list (list Qc)) (reward : list Qc)
  (caps : list nat) (iters : nat) : Prop :=
  exists a b, package_kc T D P W (inj R) (map Fin reward) caps iters false n0 = Some a /\
    reference_kc T D P W (inj R) (map Fin reward) caps iters false n0 = Some b /\ fst (fst a) <> fst (fst b).
Theorem C55_kc_refuted_equal_sizes : exists T D R reward,
  kc_instance T D T [[1; 1]] R reward [2] /\ kc_differ T D T [[1; 1]] R reward [2] 1.
Proof.
  exists 2, 1, (map (map zq) [[-3; 2]; [1; 1]]%Z), (map zq [-1; -2]%Z). split.
  - unfold kc_instance. split; [repeat constructor|]. split; [repeat constructor|]. split; [reflexivity|].
    split; [reflexivity|]. split; [|split].
    + intros [|d] ws H; cbn in H; [injection H as <-; exists 0, 1; auto|destruct d; discriminate].
    + intros [|d] ws cap H1 H2; cbn in H1, H2; [|destruct d; discriminate]. injection H1 as <-; injection H2 as <-; repeat constructor.
    + intros; lia.
  - eexists; eexists. split; [vm_compute; reflexivity|]. split; [vm_compute; reflexivity|].
    vm_compute. discriminate.
Qed.
Theorem C55_kc_refuted_constant : exists R,
  kc_instance 3 2 2 kcW R kc_reward3 [3; 2] /\ kc_differ 3 2 2 kcW R kc_reward3 [3; 2] 1.
Proof.
  exists (map (map zq) [[3000000; 3000000; 3000000]; [3000000; 3000000; 3000000]]%Z). split.
  - apply kc_instance3. repeat constructor.
  - eexists; eexists. split; [vm_compute; reflexivity|]. split; [vm_compute; reflexivity|].
    vm_compute. discriminate.
Qed.
(** filtering with [alpha = 0]: the library gives a result, Python raises *)
Theorem C55_kc_refuted_alpha :
  kc_instance 3 2 2 kcW (kcR (-4)%Z) kc_reward3 [3; 2] /\
  package_kc 3 2 2 kcW (inj (kcR (-4)%Z)) (map Fin kc_reward3) [3; 2] 1 true n0 <> None /\
  reference_kc 3 2 2 kcW (inj (kcR (-4)%Z)) (map Fin kc_reward3) [3; 2] 1 true n0 = None.
Proof.
  split; [apply kc_instance3; repeat constructor|]. split; [vm_compute; discriminate|vm_compute; reflexivity].
Qed.

(** hypotheses of [C55_kc_runs_partial] met by a run of two iterations *)
Example C55_kc_example :
  let a := Fin (Q2Qc (1 # 2)) in
  kc_instance 3 2 2 kcW (kcR (-4)%Z) kc_reward3 [3; 2] /\
  (forall i st, 1 <= i <= 2 ->
     py_kc_iterate i true a 3 2 2 [3; 2] kcW (map Fin kc_reward3) (inj (kcR (-4)%Z)) = Some st ->
     Forall (fun v => nleb v (zn 1000000) = true) (kp_oric2team st)) /\
  option_map (fun r => (map view (fst (fst r)), map view (snd (fst r)), map view (snd r)))
    (reference_kc 3 2 2 kcW (inj (kcR (-4)%Z)) (map Fin kc_reward3) [3; 2] 2 true a)
  = Some ([VFin (-3 # 2); VFin (-9 # 4); VFin (11 # 2)],
          [VFin (-5 # 2); VFin (-17 # 4); VFin (5 # 2)],
          [VFin (-5 # 2); VFin 6; VFin (5 # 2); VFin (19 # 4); VFin (-17 # 4); VFin (17 # 4)]).
Proof.
  cbn zeta. split; [apply kc_instance3; repeat constructor|]. split; [|vm_compute; reflexivity].
  intros i st Hi E. assert (X : i = 1 \/ i = 2) by lia.
  assert (F : forallb (fun v => nleb v (zn 1000000)) (kp_oric2team st) = true).
  { destruct X; subst i; (match type of E with ?l = _ =>
      assert (F : option_map (fun st => forallb (fun v => nleb v (zn 1000000)) (kp_oric2team st)) l = Some true)
        by (vm_compute; reflexivity) end); rewrite E in F; injection F as ->; reflexivity. }
  apply Forall_forall. rewrite forallb_forall in F. exact F.
Qed.

Print Assumptions C55_ksat_runs_partial.
Print Assumptions C55_ksat_runs_refuted.
Print Assumptions C55_kc_runs_partial.
Print Assumptions C55_kc_runs_refuted.
Print Assumptions C55_kc_refuted_equal_sizes.
Print Assumptions C55_kc_refuted_constant.
Print Assumptions C55_kc_refuted_alpha.
