(** * C100: what the programs of the reference implementation do with their options, and where they agree with the
    programs of the package. *)
From Coq Require Import Ascii String ZArith QArith Qcanon.
From Verif Require Import Num NumFacts Arr ArrFacts SpecCnf SpecCli M_Cnf P_Cnf M_Cli P_Cli M_Cli_Ref T_Cli.
Local Open Scope nat_scope.

(** Documentation of the programs, as in C65: option, kind, default, attribute *)
Definition rtsp_table : list row :=
  [("nITER", KInt, PInt 400, "num_iterations");
   ("nNodes", KInt, PInt 10, "num_nodes");
   ("threshold", KReal, PReal (dec (-1) 4), "threshold");
   ("symFlag", KBool, PBool false, "symmetric_flag");
   ("augmFlag", KBool, PBool false, "augmentation_flag");
   ("exactSolFlag", KBool, PBool false, "exact_solver_flag");
   ("lkhSolFlag", KBool, PBool true, "lkh_solver_flag");
   ("simAnnSolFlag", KBool, PBool false, "sim_annealing_flag");
   ("nSamples", KInt, PInt 1000, "num_augmented_samples_per_subtour_size");
   ("resetFlag", KBool, PBool false, "reset_flag");
   ("filteringFlag", KBool, PBool false, "filtering_flag");
   ("alpha", KReal, PReal (dec 5 1), "alpha");
   ("testFile", KInt, PInt 9000, "");
   ("saveFlag", KBool, PBool false, "");
   ("randomTestFlag", KBool, PBool false, "random_test_flag")]%string.
Definition rksat_table : list row :=
  [("nITER", KInt, PInt 200, "num_iterations");
   ("nVariables", KInt, PInt 10, "num_variables");
   ("nConstraints", KInt, PInt 3, "num_constraints");
   ("kVariable", KInt, PInt 3, "k_variable");
   ("threshold", KReal, PReal (dec (-1) 4), "threshold");
   ("exactSolFlag", KBool, PBool false, "exact_solver_flag");
   ("filteringFlag", KBool, PBool true, "filtering_flag");
   ("alpha", KReal, PReal (dec 5 1), "alpha");
   ("testFile", KInt, PInt 9000, "");
   ("saveFlag", KBool, PBool false, "");
   ("randomTestFlag", KBool, PBool true, "random_test_flag");
   ("inputPath", KStr, PStr (lit "../../data/impa_input"), "");
   ("outputPath", KStr, PStr (lit "../../data/impa_output"), "");
   ("PPFlag", KBool, PBool true, "")]%string.
Definition rkc_table : list row :=
  [("nITER", KInt, PInt 400, "num_iterations");
   ("filteringFlag", KBool, PBool false, "filtering_flag");
   ("alpha", KReal, PReal (dec 0 1), "alpha");
   ("PPFlag", KBool, PBool true, "post_process_flag");
   ("threshold", KReal, PReal (dec (-1) 4), "threshold")]%string.

(** ** The single programs *)

(** main_tsp.py: attributes, folders and files are those of the options; the results are saved iff saving was asked for and
    the input came from a file, and every method that is called exists. *)
Theorem C100_tsp : forall gs argv, command_line (names rtsp_table) gs argv -> Forall (documented rtsp_table) gs ->
  exists r, ref_tsp argv = Some r /\ object_ok rtsp_table gs (g_object (r_program r)) /\
    exists random save file alpha w aw,
      says gs (lit "randomTestFlag") KBool (PBool false) (PBool random) /\
      says gs (lit "saveFlag") KBool (PBool false) (PBool save) /\
      says gs (lit "testFile") KInt (PInt 9000) (PInt file) /\
      says gs (lit "alpha") KReal (PReal (dec 5 1)) (PReal (Fin alpha)) /\ whole file w /\ one_digit alpha aw /\
      g_folder (r_program r) = lit "../../../data/outputs_fixed_1000_alpha" ++ aw /\
      g_input (r_program r) = (if random then None else Some (lit "../../../data/inputs_fixed_1000_nNodes15/inputs_set" ++ w ++ lit ".pkl")) /\
      r_calls r = [lit "initialize"; lit "iterate_relaxed_graph"; lit "pre_analysis"] ++ (if save && negb random then [lit "save_outputs"] else []) /\
      r_missing r = None.
Proof.
  intros gs argv C D. destruct (read_args rtsp_table gs argv) as (ns & P & L); auto.
  change (decls_of rtsp_table) with rtsp_decls in *. unfold ref_tsp. rewrite P. cbn [bind]. clear P C D.
  unfold rtsp_table in L. unpack L. clear L. destruct (says_real _ _ _ _ _ S10) as (q & ->). shapes.
  unfold locals, rtsp_locals. cbn [mapM fst snd].
  rewrite A, A0, A1, A2, A3, A4, A5, A6, A7, A8, A9, A10, A11, A12, A13. cbn [bind].
  clear A A0 A1 A2 A3 A4 A5 A6 A7 A8 A9 A10 A11 A12 A13.
  eexists. split; [cbv -[fmt ref_input andb negb first_missing]; reflexivity|].
  split; [apply table_rows; unfold rtsp_table; rows|]. cbn [r_program g_folder g_input r_calls r_missing].
  do 3 eexists. exists q. do 2 eexists.
  do 4 (split; [eassumption|]). split; [apply str_int_whole|]. split; [apply fmt_ok|].
  split; [reflexivity|]. split; [unfold ref_input; match goal with |- (if ?b then _ else _) = _ => destruct b end; reflexivity|].
  split; [reflexivity|]. match goal with |- first_missing _ (_ :: _ :: _ :: (if ?b && negb ?c then _ else _)) = _ => destruct b, c end; reflexivity.
Qed.

(** main_ksat.py: the same with the folders of the options; but the results cannot be saved: the class has no method
    [save_outputs], and the program fails at its end if it was asked to. *)
Theorem C100_ksat : forall gs argv, command_line (names rksat_table) gs argv -> Forall (documented rksat_table) gs ->
  exists r, ref_ksat argv = Some r /\ object_ok rksat_table gs (g_object (r_program r)) /\
    exists filt pp random save out inp file alpha w aw,
      says gs (lit "filteringFlag") KBool (PBool true) (PBool filt) /\
      says gs (lit "PPFlag") KBool (PBool true) (PBool pp) /\
      says gs (lit "randomTestFlag") KBool (PBool true) (PBool random) /\
      says gs (lit "saveFlag") KBool (PBool false) (PBool save) /\
      says gs (lit "outputPath") KStr (PStr (lit "../../data/impa_output")) (PStr out) /\
      says gs (lit "inputPath") KStr (PStr (lit "../../data/impa_input")) (PStr inp) /\
      says gs (lit "testFile") KInt (PInt 9000) (PInt file) /\
      says gs (lit "alpha") KReal (PReal (dec 5 1)) (PReal (Fin alpha)) /\ whole file w /\ one_digit alpha aw /\
      g_folder (r_program r) = data_dir ++ out ++ (if filt then lit "_alpha" ++ aw else []) ++ (if pp then lit "_pp" else []) /\
      g_input (r_program r) = (if random then None else Some (data_dir ++ inp ++ lit "/inputs_set" ++ w ++ lit ".pkl")) /\
      r_calls r = [lit "initialize"; lit "run_impa"] ++ (if save && negb random then [lit "save_outputs"] else []) /\
      r_missing r = if save && negb random then Some (lit "save_outputs") else None.
Proof.
  intros gs argv C D. destruct (read_args rksat_table gs argv) as (ns & P & L); auto.
  change (decls_of rksat_table) with rksat_decls in *. unfold ref_ksat. rewrite P. cbn [bind]. clear P C D.
  unfold rksat_table in L. unpack L. clear L. destruct (says_real _ _ _ _ _ S6) as (q & ->). shapes.
  unfold locals, rksat_locals. cbn [mapM fst snd].
  rewrite A, A0, A1, A2, A3, A4, A5, A6, A7, A8, A9, A10, A11, A12. cbn [bind].
  clear A A0 A1 A2 A3 A4 A5 A6 A7 A8 A9 A10 A11 A12.
  eexists. split; [cbv -[output_folder ref_input andb negb first_missing]; reflexivity|].
  split; [apply table_rows; unfold rksat_table; rows|]. cbn [r_program g_folder g_input r_calls r_missing].
  do 7 eexists. exists q. do 2 eexists.
  do 8 (split; [eassumption|]). split; [apply str_int_whole|]. split; [apply fmt_ok|].
  split; [apply folder_ok|]. split; [unfold ref_input, data_dir; match goal with |- (if ?b then _ else _) = _ => destruct b end; reflexivity|].
  split; [reflexivity|]. match goal with |- first_missing _ (_ :: _ :: (if ?b && negb ?c then _ else _)) = _ => destruct b, c end; reflexivity.
Qed.

(** main_pure_optimized.py *)
Theorem C100_kc : forall gs argv, command_line (names rkc_table) gs argv -> Forall (documented rkc_table) gs ->
  exists obj files, ref_kc argv = Some (obj, files) /\ object_ok rkc_table gs obj /\
    files = [lit "../../../data/inputs_1000/inputs_set0.pkl"].
Proof.
  intros gs argv C D. destruct (read_args rkc_table gs argv) as (ns & P & L); auto.
  change (decls_of rkc_table) with rkc_decls in *. unfold ref_kc. rewrite P. cbn [bind]. clear P C D.
  unfold rkc_table in L. unpack L. clear L. shapes.
  unfold locals, rkc_locals. cbn [mapM fst snd].
  rewrite A, A0, A1, A2, A3. cbn [bind]. clear A A0 A1 A2 A3.
  eexists. eexists. split; [cbv; reflexivity|].
  split; [apply table_rows; unfold rkc_table; rows|]. reflexivity.
Qed.

(** ** The programs of the package and of the reference *)

Lemma means_det k w x y : means k w x -> means k w y -> x = y.
Proof. intros A B. apply means_convert in A, B. congruence. Qed.
(** the attributes that two programs have in common *)
Definition same_attributes (t t' : list row) (gs : list (text * text)) (except : list string) (o o' : list (text * pyv)) : Prop :=
  forall n k v a k' v' a', In (n, k, v, a) t -> In (n, k', v', a') t' -> a <> ""%string -> a' <> ""%string ->
    (~ In n except \/ exists w, In (lit n, w) gs) ->
    exists x, lookup (lit a) o = Some x /\ lookup (lit a) o' = Some x /\ a = a'.
Lemma last_some n gs w : In (n, w) gs -> last_setting n gs <> None.
Proof.
  unfold last_setting. assert (X : forall r : option text, r <> None \/ In (n, w) gs ->
    fold_left (fun r (g : text * text) => if list_eq_dec ascii_dec (fst g) n then Some (snd g) else r) gs r <> None).
  { induction gs as [|g gs IH]; intros r H; cbn [fold_left]; [destruct H as [H|[]]; exact H|]. apply IH.
    destruct H as [H|[->|H]]; [left|left|right; exact H].
    - destruct (list_eq_dec ascii_dec (fst g) n); [discriminate|exact H].
    - cbn [fst]. destruct (list_eq_dec ascii_dec n n); [discriminate|contradiction]. }
  intros I. apply X. right. exact I.
Qed.
(** rows of the same option: kind and attribute agree, and so does the default unless the option is in [except] *)
Definition pyv_dec (x y : pyv) : {x = y} + {x <> y}.
Proof. repeat (decide equality); try apply Qc_eq_dec. Defined.
Definition kind_eqb (a b : kind) : bool :=
  match a, b with KInt, KInt | KReal, KReal | KBool, KBool | KStr, KStr | KHelp, KHelp => true | _, _ => false end.
Definition agreeing (t t' : list row) (except : list string) : bool :=
  forallb (fun r : row => forallb (fun r' : row =>
    let '(n, k, v, a) := r in let '(n', k', v', a') := r' in
    negb (n =? n')%string || (a =? "")%string || (a' =? "")%string ||
    (kind_eqb k k' && (a =? a')%string && (existsb (String.eqb n) except || if pyv_dec v v' then true else false))) t') t.
Lemma objects_agree t t' gs except o o' : agreeing t t' except = true -> object_ok t gs o -> object_ok t' gs o' -> same_attributes t t' gs except o o'.
Proof.
  intros Ag O O' n k v a k' v' a' I I' Na Na' H. destruct (O _ _ _ _ I Na) as (x & Lx & Sx). destruct (O' _ _ _ _ I' Na') as (y & Ly & Sy).
  unfold agreeing in Ag. rewrite forallb_forall in Ag. specialize (Ag _ I). rewrite forallb_forall in Ag. specialize (Ag _ I'). cbn beta iota in Ag.
  rewrite String.eqb_refl in Ag. cbn [negb orb] in Ag. destruct (String.eqb_spec a ""); [contradiction|]. destruct (String.eqb_spec a' ""); [contradiction|].
  cbn [orb] in Ag. apply andb_true_iff in Ag as (Ag & Dv). apply andb_true_iff in Ag as (Ek & Ea).
  apply String.eqb_eq in Ea. subst a'. assert (k = k') by (destruct k, k'; reflexivity || discriminate Ek). subst k'.
  assert (x = y); [|subst y; exists x; auto].
  unfold says in Sx, Sy. destruct (last_setting (lit n) gs) as [w|] eqn:Q; [eapply means_det; eauto|]. subst x y.
  destruct H as [H|(w & Iw)]; [|apply last_some in Iw; contradiction].
  apply orb_true_iff in Dv as [Dv|Dv].
  - apply existsb_exists in Dv as (m & Im & Em). apply String.eqb_eq in Em. subst m. contradiction.
  - destruct (pyv_dec v v'); [assumption|discriminate Dv].
Qed.

(** Full statement: the two programs, run with the same settings, work with objects whose common attributes are equal.
    Proved, except for the options whose defaults differ (named in the list): these must be set. *)
Theorem C100_agree :
  (forall gs argv argv', command_line (names tsp_table) gs argv -> command_line (names rtsp_table) gs argv' ->
     Forall (documented tsp_table) gs -> Forall (documented rtsp_table) gs ->
     exists p r, main_tsp argv = Some p /\ ref_tsp argv' = Some r /\
       same_attributes tsp_table rtsp_table gs ["alpha"%string] (g_object p) (g_object (r_program r))) /\
  (forall gs argv argv' k nv, command_line (names ksat_table) gs argv -> command_line (names rksat_table) gs argv' ->
     Forall (documented ksat_table) gs -> Forall (documented rksat_table) gs ->
     says gs (lit "kVariable") KInt (PInt 3) (PInt k) -> says gs (lit "nVariables") KInt (PInt 10) (PInt nv) -> (k < nv)%Z ->
     exists p r, main_ksat argv = Some p /\ ref_ksat argv' = Some r /\
       same_attributes ksat_table rksat_table gs ["randomTestFlag"%string] (g_object p) (g_object (r_program r))) /\
  (forall gs argv argv', command_line (names kc_table) gs argv -> command_line (names rkc_table) gs argv' ->
     Forall (documented kc_table) gs -> Forall (documented rkc_table) gs ->
     exists o f o' f', main_kc argv = Some (o, f) /\ ref_kc argv' = Some (o', f') /\ same_attributes kc_table rkc_table gs [] o o').
Proof.
  split; [|split].
  - intros gs argv argv' C C' Dc Dc'. destruct (C65_tsp gs argv C Dc) as (p & E & O & _). destruct (C100_tsp gs argv' C' Dc') as (r & E' & O' & _).
    exists p, r. split; [exact E|]. split; [exact E'|]. apply objects_agree; [vm_compute; reflexivity|assumption|assumption].
  - intros gs argv argv' k nv C C' Dc Dc' Sk Sn Lt. destruct (C65_ksat gs argv k nv C Dc Sk Sn) as (X & _). destruct (X Lt) as (p & E & O & _).
    destruct (C100_ksat gs argv' C' Dc') as (r & E' & O' & _).
    exists p, r. split; [exact E|]. split; [exact E'|]. apply objects_agree; [vm_compute; reflexivity|assumption|assumption].
  - intros gs argv argv' C C' Dc Dc'. destruct (C65_kc gs argv C Dc) as (o & f & E & O & _). destruct (C100_kc gs argv' C' Dc') as (o' & f' & E' & O' & _).
    exists o, f, o', f'. split; [exact E|]. split; [exact E'|]. apply objects_agree; [vm_compute; reflexivity|assumption|assumption].
Qed.

(** Without the exceptions the statement is false: started without options, the TSP programs filter with different rates and only
    one of the K-SAT programs reads a file. *)
Theorem C100_defaults_refuted : exists p r p' r',
  main_tsp [] = Some p /\ ref_tsp [] = Some r /\ lookup (lit "alpha") (g_object p) = Some (PReal (dec 7 1)) /\
  lookup (lit "alpha") (g_object (r_program r)) = Some (PReal (dec 5 1)) /\
  main_ksat [] = Some p' /\ ref_ksat [] = Some r' /\ g_input p' <> None /\ g_input (r_program r') = None.
Proof.
  do 4 eexists. split; [vm_compute; reflexivity|]. split; [vm_compute; reflexivity|].
  split; [vm_compute; reflexivity|]. split; [vm_compute; reflexivity|]. split; [vm_compute; reflexivity|]. split; [vm_compute; reflexivity|].
  split; [discriminate|reflexivity].
Qed.
(** Full statement: the reference K-SAT program can save its results.  False: asked to, it fails (after all the work). *)
Theorem C100_save_refuted : exists r, ref_ksat [lit "--saveFlag=1"; lit "--randomTestFlag="] = Some r /\
  g_save (r_program r) = true /\ g_input (r_program r) <> None /\ r_missing r = Some (lit "save_outputs").
Proof. eexists. split; [vm_compute; reflexivity|]. split; [reflexivity|]. split; [discriminate|reflexivity]. Qed.
(** Full statement: the post-processing option reaches the solver.  False for the reference K-SAT program: its constructor drops it. *)
Theorem C100_pp_refuted : exists r r', ref_ksat [lit "--PPFlag=1"] = Some r /\ ref_ksat [lit "--PPFlag="] = Some r' /\
  g_object (r_program r) = g_object (r_program r') /\ lookup (lit "post_process_flag") (g_object (r_program r)) = None /\
  g_folder (r_program r) <> g_folder (r_program r').
Proof. do 2 eexists. split; [vm_compute; reflexivity|]. split; [vm_compute; reflexivity|]. split; [reflexivity|]. split; [vm_compute; reflexivity|discriminate]. Qed.

(** ** Example: settings that both TSP programs know, written differently *)
Definition settings2 : list (text * text) := [(lit "threshold", lit "-0.25"); (lit "augmFlag", lit "True"); (lit "alpha", lit "-0.25")].
Definition argv2 : list text := [lit "--thr"; lit "-0.25"; lit "--augmFlag=True"; lit "--al=-0.25"].
Definition argv2' : list text := [lit "--thr=-0.25"; lit "--augmFlag"; lit "True"; lit "--alpha"; lit "-0.25"].
Lemma documented2 t k1 k2 k3 : (exists v a, In ("threshold"%string, KReal, v, a) t /\ k1 = v) -> (exists v a, In ("augmFlag"%string, KBool, v, a) t /\ k2 = v) ->
  (exists v a, In ("alpha"%string, KReal, v, a) t /\ k3 = v) -> Forall (documented t) settings2.
Proof.
  intros (v1 & a1 & I1 & _) (v2 & a2 & I2 & _) (v3 & a3 & I3 & _). unfold settings2.
  constructor; [|constructor; [|constructor; [|constructor]]].
  - exists "threshold"%string, KReal, v1, a1, (PReal (Fin (Q2Qc (-1#4)))). split; [exact I1|]. split; [reflexivity|]. exact quarter.
  - exists "augmFlag"%string, KBool, v2, a2, (PBool true). split; [exact I2|]. split; [reflexivity|]. split; [discriminate|reflexivity].
  - exists "alpha"%string, KReal, v3, a3, (PReal (Fin (Q2Qc (-1#4)))). split; [exact I3|]. split; [reflexivity|]. exact quarter.
Qed.
Example C100_example : command_line (names tsp_table) settings2 argv2 /\ command_line (names rtsp_table) settings2 argv2' /\
  Forall (documented tsp_table) settings2 /\ Forall (documented rtsp_table) settings2 /\
  exists p r, main_tsp argv2 = Some p /\ ref_tsp argv2' = Some r /\
    lookup (lit "alpha") (g_object p) = Some (PReal (Fin (Q2Qc (-1#4)))) /\
    lookup (lit "alpha") (g_object (r_program r)) = Some (PReal (Fin (Q2Qc (-1#4)))) /\
    lookup (lit "augmentation_flag") (g_object (r_program r)) = Some (PBool true) /\
    lookup (lit "num_nodes") (g_object p) = Some (PInt 10) /\ lookup (lit "num_nodes") (g_object (r_program r)) = Some (PInt 10) /\
    g_folder (r_program r) = lit "../../../data/outputs_fixed_1000_alpha-0.2".
Proof.
  split; [|split; [|split; [|split]]].
  - exists [[lit "--thr"; lit "-0.25"]; [lit "--augmFlag=True"]; [lit "--al=-0.25"]]. split; [reflexivity|].
    constructor; [apply (setting_two _ _ _ (lit "thr")); [apply abbreviation; [apply in_names| |]; reflexivity|right; eexists; exact quarter]|].
    constructor; [apply (setting_one _ _ _ (lit "augmFlag")); apply exact_name, in_names; reflexivity|].
    constructor; [apply (setting_one _ _ _ (lit "al")); apply abbreviation; [apply in_names| |]; reflexivity|]. constructor.
  - exists [[lit "--thr=-0.25"]; [lit "--augmFlag"; lit "True"]; [lit "--alpha"; lit "-0.25"]]. split; [reflexivity|].
    constructor; [apply (setting_one _ _ _ (lit "thr")); apply abbreviation; [apply in_names| |]; reflexivity|].
    constructor; [apply (setting_two _ _ _ (lit "augmFlag")); [apply exact_name, in_names; reflexivity|left; discriminate]|].
    constructor; [apply (setting_two _ _ _ (lit "alpha")); [apply exact_name, in_names; reflexivity|right; eexists; exact quarter]|]. constructor.
  - eapply documented2; do 2 eexists; (split; [unfold tsp_table; cbn [In]; tauto|reflexivity]).
  - eapply documented2; do 2 eexists; (split; [unfold rtsp_table; cbn [In]; tauto|reflexivity]).
  - do 2 eexists. split; [vm_compute; reflexivity|]. split; [vm_compute; reflexivity|]. repeat (split; [vm_compute; reflexivity|]). vm_compute; reflexivity.
Qed.

Print Assumptions C100_tsp.
Print Assumptions C100_ksat.
Print Assumptions C100_kc.
Print Assumptions C100_agree.
Print Assumptions C100_defaults_refuted.
Print Assumptions C100_save_refuted.
Print Assumptions C100_pp_refuted.
