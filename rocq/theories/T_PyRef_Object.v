(** * C84: the pure Python K-SAT solver as an object: instances and decisions *)
From Coq Require Import Permutation.
From Verif Require Import Num NumFacts Arr ArrFacts Spec M_Runs M_Tsp_Run M_Ksat_Py P_Ksat_Py P_Ksat_Gen M_Instances M_PyRef_Run M_PyRef_Object.
From Verif Require Import T_Ksat_Py T_PyRef_Run T_Instances.
Local Open Scope nat_scope.

Lemma ref_formula_ok nv nc k sol ord draws : 1 <= k -> length sol = nv -> length draws = nc ->
  Forall (valid_draw nv k) draws -> (forall l, Permutation l (ord l)) ->
  exists f, ref_formula nv nc k sol ord draws = Some f /\ consistent nv f /\ clauses_base nv k sol f /\
    NoDup (y_used f) /\ y_nc f = nc.
Proof.
  intros Hk Ls Ld Hd P. unfold ref_formula. destruct (gen_start nv k sol) as [W0 Q0].
  match goal with |- context [for_up 0 nc ?s0 ?bd] =>
    destruct (for_up_ind 0 nc s0 bd (fun i g => consistent nv (as_formula g) /\ clauses_base nv k sol (as_formula g) /\ length (g_conx g) = i))
      as (g & -> & W & Q & L) end; [lia| | |].
  - split; [exact W0|]. split; [exact (base_of _ _ _ _ Q0)|reflexivity].
  - intros i g Hi (W & Q & L). destruct (get_lt draws i) as [d Ed]; [lia|]. rewrite Ed. cbn [bind]. unfold ref_gen_step.
    pose proof (proj1 (Forall_forall _ _) Hd d (nth_error_In _ _ Ed)) as Vd.
    destruct (draw_clause_ok nv k sol d Hk Ls Vd) as (ls & -> & Gl). cbn [bind].
    destruct (keep_ok nv k sol g ls Gl W Q) as (vc & vt & -> & Et & W' & Q'). cbn [bind]. rewrite Et. cbn [bind].
    eexists. split; [reflexivity|]. split; [exact W'|]. split; [exact Q'|]. cbn. rewrite app_length. cbn. lia.
  - cbn [bind]. eexists. split; [reflexivity|].
    assert (U : forall v, In v (ord (dedup (g_used g))) <-> In v (g_used g)).
    { intros v. transitivity (In v (dedup (g_used g))); [|apply nodup_In]. split; intros H.
      - apply (Permutation_in _ (Permutation_sym (P _))). auto.
      - apply (Permutation_in _ (P _)). auto. }
    destruct W as [X1 X2 X3 X4 X5 X6 X7 X8 X9 X10]. destruct Q as [Y1 Y2 Y3 Y4].
    cbn [as_formula y_nc y_conx y_types y_used y_vconx y_vtypes] in *. rewrite L in *.
    split; [|split; [|split; [apply (Permutation_NoDup (P _)), NoDup_nodup|reflexivity]]].
    + constructor; cbn [y_nc y_conx y_types y_used y_vconx y_vtypes]; auto.
      * apply Forall_forall. intros v Hv. apply U in Hv. apply (proj1 (Forall_forall _ _) X8). auto.
      * intros c v t H. apply U. apply (X9 c v t H).
    + constructor; cbn [y_nc y_conx y_types y_used y_vconx y_vtypes]; auto. intros v Hv. apply U in Hv. apply (Y3 v Hv).
Qed.

(** The list stored for an instance, in the order of generate_inputs.py:104-118 *)
Definition instance_file (nv k type : nat) (sol : list bool) (f : formula) (metrics : list num) : list entry :=
  [EInt nv; EInt (y_nc f); EInt k; ERows (y_conx f); ESigns (y_types f); ENums metrics;
   EIndices (y_used f); ERows (y_vconx f); ESigns (y_vtypes f); EInt type; EAssignment sol].

Lemma ref_metrics_ok nv sol draws : length sol = nv -> nv <= length draws ->
  exists ms, ref_metrics nv sol draws = Some (map Fin ms) /\ length ms = nv /\
    forall i t d, nth_error sol i = Some t -> nth_error draws i = Some d ->
      nth_error ms i = Some ((if t then - Q2Qc (3 # 2) else Q2Qc (3 # 2)) + e_dev d)%Qc.
Proof.
  intros Ls Ld. destruct sol as [|b sol'] eqn:Es.
  { exists []. cbn in Ls. subst nv. split; [reflexivity|]. split; [reflexivity|]. intros [|i] t d H; discriminate. }
  destruct (C68_metrics nv 1 ref_variance sol draws) as (ms & E & L & H); subst sol; auto; [cbn in Ls; lia|].
  exists ms. split; [exact E|]. split; [exact L|]. intros i t d H1 H2. destruct (H i t d H1 H2) as (mean & M & ->).
  cbn [mean_of] in M. subst mean. assert (Hv : (ref_variance / (1 + 1))%Qc = Q2Qc (3 # 2)) by (apply Qc_is_canon; vm_compute; reflexivity).
  rewrite Hv. reflexivity.
Qed.

Lemma agree nv k f ms iters flag alpha thr pp ord2 ord3 r v : 2 <= k -> consistent nv f ->
  Forall (fun r => length r = k /\ NoDup r) (y_conx f) -> (forall v, v < nv -> NoDup (nth v (y_vconx f) [])) ->
  NoDup (y_used f) -> length ms = nv -> (flag = true -> alpha <> 0%Qc) ->
  rf_nv r = nv -> rf_nc r = y_nc f -> rf_formula r = f -> rf_metrics r = map Fin ms ->
  v_nv v = nv -> v_k v = k -> v_formula v = f -> v_metrics v = map Fin ms ->
  initial_messages nv f (map Fin ms) = Some (v_messages v) -> v_nused v = length (y_used f) -> v_sizes v = map (@length nat) (y_vconx f) ->
  exists ext hd s, ref_run iters flag (Fin alpha) thr r = Some (ext, hd, s) /\
    run_ksat_object iters flag (Fin alpha) thr false pp ord2 ord3 v = Some (f, ext, {| k_hd := hd; k_sum := s; k_flag := flag_of s |}) /\
    forall c, In c (v_unsat s) <-> c < y_nc f /\ ~ clause_true f hd c.
Proof.
  intros Hk W Qs Qo N Lm Ha R1 R2 R3 R4 V1 V2 V3 V4 V5 V6 V7.
  destruct (ksat_runs_agree nv k f ms iters flag alpha thr Hk W Qs Qo N Lm Ha) as (((ext, intr), hd) & P1 & P2 & Li). cbn [snd] in Li.
  unfold ref_run, run_ksat_object. unfold reference_ksat in P2. rewrite R1, R2, R3, R4, P2. cbn [bind].
  unfold package_ksat in P1. rewrite V5 in P1. cbn [bind] in P1. rewrite V1, V2, V3, V4, V6, V7.
  destruct (wrapper_ksat _ _ _ _ _ _ _ _ _ _ _ _ _ _) as [e|]; [|discriminate]. cbn [bind] in *.
  destruct (py_ksat_intrinsic f (map Fin ms) e) as [i|] eqn:Ei; [|discriminate]. cbn [bind] in P1. injection P1 as -> -> <-.
  destruct (C34_summary_exact nv f _ W Li) as (s & Es & U & _). rewrite Es. cbn [bind].
  exists ext, (map (py_decide thr) intr), s. split; [reflexivity|]. split; [|exact U].
  unfold py_ksat_finish. rewrite Ei. cbn [bind]. unfold hard_decision_analysis. rewrite Es. cbn [bind]. now rewrite andb_false_r.
Qed.

(** A stored instance with at least two variables per clause (clause view and variable view agree, every
    clause has k distinct variables and no variable lists a clause twice): the pure Python object and the library object
    that load it hold the same formula and metrics.  Their runs give the same outputs, decisions and
    report, and the clauses reported as violated are those that the decisions violate.  The library runs
    without repair here; the pure Python solver has none. *)
Theorem C84_same_results_partial : forall nv k type sol f ms nv' nc' k' ord x z ord' x' fresh iters flag alpha thr pp ord2 ord3,
  2 <= k -> consistent nv f -> Forall (fun row => length row = k /\ NoDup row) (y_conx f) ->
  (forall v, v < nv -> NoDup (nth v (y_vconx f) [])) -> NoDup (y_used f) -> length ms = nv ->
  (* the generator, which also runs: *)
  length (x_sol x) = nv -> nv <= length (x_metrics x) -> length (x_clauses x) = y_nc f -> Forall (valid_draw nv k) (x_clauses x) ->
  (forall l, Permutation l (ord l)) -> z_overwrite z = false ->
  (* missing: filtering with alpha = 0, where Python raises (C55_ksat_runs_refuted) *)
  (flag = true -> alpha <> 0%Qc) ->
  let file := instance_file nv k type sol f (map Fin ms) in
  exists r v ext hd s,
    ref_initialize false nv' nc' k' file ord x = Some r /\ initialize_ksat false z file ord' x' fresh = Some v /\
    rf_formula r = f /\ v_formula v = f /\ rf_metrics r = map Fin ms /\ v_metrics v = map Fin ms /\
    ref_run iters flag (Fin alpha) thr r = Some (ext, hd, s) /\
    run_ksat_object iters flag (Fin alpha) thr false pp ord2 ord3 v = Some (f, ext, {| k_hd := hd; k_sum := s; k_flag := flag_of s |}) /\
    forall c, In c (v_unsat s) <-> c < y_nc f /\ ~ clause_true f hd c.
Proof.
  intros nv k type sol f ms nv' nc' k' ord x z ord' x' fresh iters flag alpha thr pp ord2 ord3 Hk W Qs Qo N Lm Ls Ld Lc Hd P Z Ha file.
  destruct (ref_metrics_ok nv (x_sol x) (x_metrics x) Ls Ld) as (ms' & Em & _).
  destruct (ref_formula_ok nv (y_nc f) k (x_sol x) ord (x_clauses x)) as (f' & Ef & _); auto; [lia|].
  destruct (initial_messages_ok nv f ms W Lm) as (M & Ei & _).
  assert (Y : {| y_nc := y_nc f; y_conx := y_conx f; y_types := y_types f; y_used := y_used f; y_vconx := y_vconx f; y_vtypes := y_vtypes f |} = f)
    by (destruct f; reflexivity).
  set (r := {| rf_nv := nv; rf_nc := y_nc f; rf_k := k; rf_formula := f; rf_metrics := map Fin ms; rf_truth := x_sol x |}).
  assert (Er : ref_initialize false nv' nc' k' file ord x = Some r).
  { unfold ref_initialize, file, instance_file. cbn [as_int as_rows as_signs as_nums as_indices get nth_error bind].
    rewrite Em. cbn [bind]. rewrite Ef. cbn [bind]. rewrite Y. reflexivity. }
  set (v := {| v_nv := nv; v_k := k; v_type := type; v_sol := sol; v_formula := f; v_metrics := map Fin ms; v_messages := inj M;
               v_nused := length (y_used f); v_sizes := map (@length nat) (y_vconx f) |}).
  assert (Ev : initialize_ksat false z file ord' x' fresh = Some v).
  { unfold initialize_ksat, file, instance_file. cbn [as_int as_rows as_signs as_nums as_indices as_assignment get nth_error bind].
    rewrite Z. cbn [bind]. rewrite Y, Ei. reflexivity. }
  destruct (agree nv k f ms iters flag alpha thr pp ord2 ord3 r v) as (ext & hd & s & A1 & A2 & A3); auto.
  exists r, v, ext, hd, s. repeat (split; [first [exact Er|exact Ev|reflexivity|exact A1|exact A2]|]). exact A3.
Qed.

(** An instance drawn by the pure Python solver itself has exactly the requested number of clauses; every
    clause has k distinct variables; the truth vector satisfies all; views agree, the used variables are
    those that occur; the metric of a variable is drawn around -3/2 if it is true in the truth vector and
    around 3/2 if not.  Stored, it is an instance to which [C84_same_results_partial] applies. *)
Theorem C84_generated : forall nv nc k any ord x,
  1 <= k -> length (x_sol x) = nv -> nv <= length (x_metrics x) -> length (x_clauses x) = nc ->
  Forall (valid_draw nv k) (x_clauses x) -> (forall l, Permutation l (ord l)) ->
  exists r ms, ref_initialize true nv nc k any ord x = Some r /\ rf_truth r = x_sol x /\
    let f := rf_formula r in
    y_nc f = nc /\ length (y_conx f) = nc /\ Forall (fun row => length row = k /\ NoDup row) (y_conx f) /\
    (forall c, c < nc -> clause_true f (planted (rf_truth r)) c) /\
    NoDup (y_used f) /\ (forall v, In v (y_used f) <-> exists c t, in_clause f c v t) /\
    consistent nv f /\ (forall v, v < nv -> NoDup (nth v (y_vconx f) [])) /\
    rf_metrics r = map Fin ms /\ length ms = nv /\
    forall i t d, nth_error (x_sol x) i = Some t -> nth_error (x_metrics x) i = Some d ->
      nth_error ms i = Some ((if t then - Q2Qc (3 # 2) else Q2Qc (3 # 2)) + e_dev d)%Qc.
Proof.
  intros nv nc k any ord x Hk Ls Ld Lc Hd P.
  destruct (ref_metrics_ok nv (x_sol x) (x_metrics x) Ls Ld) as (ms & Em & Lm & Hm).
  destruct (ref_formula_ok nv nc k (x_sol x) ord (x_clauses x)) as (f & Ef & W & Q & N & Nc); auto.
  eexists _, ms. split; [unfold ref_initialize; cbn [bind]; rewrite Em; cbn [bind]; rewrite Ef; cbn [bind]; reflexivity|].
  cbn [rf_truth rf_formula rf_metrics]. split; [reflexivity|]. cbv zeta. split; [exact Nc|]. split; [rewrite (c_conx _ _ W); exact Nc|].
  split; [exact (b_size _ _ _ _ Q)|]. split.
  { intros c Hc. destruct (b_planted _ _ _ _ Q c) as (v & b & A & B); [lia|]. exists v, (if b then 1%Z else (-1)%Z). split; [exact B|].
    exists (bit b). split; [unfold planted; rewrite nth_error_map, A; reflexivity|]. destruct b; [left|right]; split; auto. cbn. discriminate. }
  split; [exact N|]. split; [|split; [exact W|split; [exact (b_once _ _ _ _ Q)|auto]]]. intros v. split; [apply (b_occurs _ _ _ _ Q)|]. intros (c & t & H). exact (c_used _ _ W c v t H).
Qed.

Definition x84 : ksat_draws := {| x_sol := [true; false; true; false];
  x_metrics := map (fun z => {| e_sign := false; e_dev := Q2Qc (inject_Z z) |}) [1; -2; 0; 4]%Z;
  x_clauses := [T_Ksat_Py.d2 0 0 true; T_Ksat_Py.d2 1 0 false; T_Ksat_Py.d2 2 2 true] |}.
Lemma x84_valid : Forall (valid_draw 4 2) (x_clauses x84).
Proof.
  repeat constructor; cbn; try lia; intros [|[|j]] i s H; try discriminate; cbn in H; injection H as <- <-; lia.
Qed.
(** Three clauses on four variables.  The first two have the same variables: the library drops the second. *)
Example C84_example :
  option_map (fun r => (y_conx (rf_formula r), y_types (rf_formula r), y_vconx (rf_formula r), y_used (rf_formula r), map view (rf_metrics r)))
    (ref_initialize true 4 3 2 [] (fun l => l) x84)
  = Some ([[0; 1]; [1; 0]; [2; 3]], [[1; 1]; [-1; -1]; [1; 1]]%Z, [[0; 1]; [0; 1]; [2]; [2]], [1; 0; 2; 3],
          map view [Fin (Q2Qc (-1 # 2)); Fin (Q2Qc (-1 # 2)); Fin (Q2Qc (-3 # 2)); Fin (Q2Qc (11 # 2))])
  /\ option_map y_conx (create_formula 4 2 (x_sol x84) (fun l => l) (x_clauses x84)) = Some [[0; 1]; [2; 3]].
Proof. vm_compute. split; reflexivity. Qed.

(** So clauses on the same variables do occur, other than in the library (C35). *)
Theorem C84_distinct_refuted : exists nv nc k x r, 2 <= k /\ length (x_sol x) = nv /\ nv <= length (x_metrics x) /\
  length (x_clauses x) = nc /\ Forall (valid_draw nv k) (x_clauses x) /\
  ref_initialize true nv nc k [] (fun l => l) x = Some r /\
  exists c1 c2 r1 r2, c1 <> c2 /\ nth_error (y_conx (rf_formula r)) c1 = Some r1 /\ nth_error (y_conx (rf_formula r)) c2 = Some r2 /\
    forall v, In v r1 <-> In v r2.
Proof.
  exists 4, 3, 2, x84. eexists. split; [lia|]. split; [reflexivity|]. split; [cbn; lia|]. split; [reflexivity|]. split; [exact x84_valid|].
  split; [reflexivity|]. exists 0, 1, [0; 1], [1; 0]. split; [lia|]. split; [reflexivity|]. split; [reflexivity|]. cbn. intuition.
Qed.

(** After loading an instance the truth vector belongs to another, discarded one: it need not satisfy the
    formula held by the object, although the stored assignment does. *)
Definition f84 : formula := {| y_nc := 1; y_conx := [[0; 1]]; y_types := [[1; -1]]%Z; y_used := [0; 1]; y_vconx := [[0]; [0]]; y_vtypes := [[1]; [-1]]%Z |}.
Definition y84 : ksat_draws := {| x_sol := [false; true]; x_metrics := [{| e_sign := false; e_dev := 0%Qc |}; {| e_sign := false; e_dev := 0%Qc |}];
  x_clauses := [T_Ksat_Py.d2 0 0 true] |}.
Theorem C84_truth_refuted : exists nv k f sol ms x r, consistent nv f /\ length (x_sol x) = nv /\ Forall (valid_draw nv k) (x_clauses x) /\
  ref_initialize false 0 0 0 (instance_file nv k 1 sol f (map Fin ms)) (fun l => l) x = Some r /\ rf_formula r = f /\
  (forall c, c < y_nc f -> clause_true f (planted sol) c) /\ exists c, c < y_nc f /\ ~ clause_true f (planted (rf_truth r)) c.
Proof.
  exists 2, 2, f84, [true; false], [zq 1; zq 2], y84. eexists. split.
  { destruct (create_formula_ok 2 2 [true; false] (fun l => l) [T_Ksat_Py.d2 0 0 false]) as (f & E & W & _).
    - lia.
    - reflexivity.
    - repeat constructor; cbn; try lia; intros [|[|j]] i s H; try discriminate; cbn in H; injection H as <- <-; lia.
    - auto.
    - assert (f = f84) by (unfold f84; vm_compute in E; congruence). now subst f. }
  split; [reflexivity|]. split; [repeat constructor; cbn; try lia; intros [|[|j]] i s H; try discriminate; cbn in H; injection H as <- <-; lia|].
  split; [reflexivity|]. split; [reflexivity|]. split.
  - intros [|c] Hc; [|cbn in Hc; lia]. exists 0, 1%Z. split; [exists 0; split; reflexivity|]. exists n1. split; [reflexivity|]. left. split; [reflexivity|discriminate].
  - exists 0. split; [cbn; lia|]. intros (v & t & (j & H1 & H2) & y & H3 & H4). cbn in H1, H2, H3.
    destruct j as [|[|j]]; cbn in H1, H2; [| |destruct j; discriminate].
    + injection H1 as <-. injection H2 as <-. cbn in H3. injection H3 as <-. destruct H4 as [[_ H4]|[H4 _]]; [now apply H4|discriminate].
    + injection H1 as <-. injection H2 as <-. cbn in H3. injection H3 as <-. destruct H4 as [[H4 _]|[_ H4]]; discriminate.
Qed.

(** The instance of [C84_example], stored and loaded by both: filtering, three iterations.  Same outputs, one
    report. *)
Example C84_run_example :
  (forall r, ref_initialize true 4 3 2 [] (fun l => l) x84 = Some r ->
   let file := instance_file 4 2 1 (x_sol x84) (rf_formula r) (rf_metrics r) in
   option_map (fun o => (map view (fst (fst o)), map view (snd (fst o)), v_unsat (snd o)))
     (r' <- ref_initialize false 0 0 0 file (fun l => l) x84 ;; ref_run 3 true (Fin (Q2Qc (1 # 2))) n0 r') =
   option_map (fun o => (map view (snd (fst o)), map view (k_hd (snd o)), v_unsat (k_sum (snd o))))
     (v <- initialize_ksat false {| z_nv := 0; z_k := 0; z_type := 0; z_var := 0%Qc; z_overwrite := false |} file (fun l => l) x84 [] ;;
      run_ksat_object 3 true (Fin (Q2Qc (1 # 2))) n0 false 0 (fun l => l) (fun l => l) v) /\
   option_map (fun o => v_unsat (snd o))
     (r' <- ref_initialize false 0 0 0 file (fun l => l) x84 ;; ref_run 3 true (Fin (Q2Qc (1 # 2))) n0 r') = Some [1]).
Proof. intros r H. vm_compute in H. injection H as <-. vm_compute. split; reflexivity. Qed.

Print Assumptions C84_same_results_partial.
Print Assumptions C84_generated.
Print Assumptions C84_distinct_refuted.
Print Assumptions C84_truth_refuted.
