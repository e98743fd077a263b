(** * C65: what the command line programs do with their options. *)
From Coq Require Import Ascii String ZArith QArith Qcanon.
From Verif Require Import Num NumFacts Arr ArrFacts SpecCnf SpecCli M_Cnf P_Cnf M_Cli P_Cli.
Local Open Scope nat_scope.

(** Documentation of a program: option, kind, default, and the attribute of the solver object that
    it sets ("" if none). *)
Definition row : Type := string * kind * pyv * string.
Definition row_name (r : row) : text := let '(o, _, _, _) := r in lit o.
Definition names (t : list row) : list text := lit "help" :: map row_name t.
(** a setting of a documented option with a word that can be read *)
Definition documented (t : list row) (g : text * text) : Prop :=
  exists o k v a x, In (o, k, v, a) t /\ fst g = lit o /\ means k (snd g) x.
(** every attribute has the value that the command line says *)
Definition object_ok (t : list row) (gs : list (text * text)) (obj : list (text * pyv)) : Prop :=
  forall o k v a, In (o, k, v, a) t -> a <> ""%string -> exists x, lookup (lit a) obj = Some x /\ says gs (lit o) k v x.
Definition data_dir : text := lit "../../data/".

Definition tsp_table : list row :=
  [("nITER", KInt, PInt 400, "num_iterations");
   ("nNodes", KInt, PInt 10, "num_nodes");
   ("threshold", KReal, PReal (dec (-1) 4), "threshold");
   ("symFlag", KBool, PBool false, "symmetric_flag");
   ("augmFlag", KBool, PBool false, "augmentation_flag");
   ("exactSolFlag", KBool, PBool false, "exact_solver_flag");
   ("lkhSolFlag", KBool, PBool true, "lkh_solver_flag");
   ("simAnnSolFlag", KBool, PBool false, "sim_annealing_flag");
   ("resetFlag", KBool, PBool false, "reset_flag");
   ("filteringFlag", KBool, PBool false, "filtering_flag");
   ("alpha", KReal, PReal (dec 7 1), "alpha");
   ("testFile", KInt, PInt 9000, "");
   ("saveFlag", KBool, PBool false, "");
   ("randomTestFlag", KBool, PBool false, "random_test_flag");
   ("inputPath", KStr, PStr (lit "../../data/impa_input"), "");
   ("outputPath", KStr, PStr (lit "../../data/impa_output"), "");
   ("maxCount", KInt, PInt 10, "max_count");
   ("PPFlag", KBool, PBool true, "post_process_flag");
   ("KOPTFlag", KBool, PBool false, "k_opt_flag");
   ("maxAugmCount", KInt, PInt 200, "max_augm_count")]%string.
Definition ksat_table : list row :=
  [("nITER", KInt, PInt 200, "num_iterations");
   ("nVariables", KInt, PInt 10, "num_variables");
   ("nConstraints", KInt, PInt 3, "num_constraints");
   ("kVariable", KInt, PInt 3, "k_variable");
   ("threshold", KReal, PReal (dec (-1) 4), "threshold");
   ("PPElements", KInt, PInt 2, "pp_elements");
   ("filteringFlag", KBool, PBool true, "filtering_flag");
   ("alpha", KReal, PReal (dec 5 1), "alpha");
   ("testFile", KInt, PInt 9000, "");
   ("saveFlag", KBool, PBool false, "");
   ("typeMetrics", KInt, PInt 0, "type_metrics");
   ("var", KReal, PInt 3, "var");
   ("overwrite", KBool, PBool false, "overwrite");
   ("PPFlag", KBool, PBool false, "post_process_flag");
   ("randomTestFlag", KBool, PBool false, "random_test_flag");
   ("inputPath", KStr, PStr (lit "../../data/impa_input"), "");
   ("outputPath", KStr, PStr (lit "../../data/impa_output"), "")]%string.
Definition kc_table : list row :=
  [("nITER", KInt, PInt 400, "num_iterations");
   ("filteringFlag", KBool, PBool false, "filtering_flag");
   ("alpha", KReal, PReal (dec 0 1), "alpha");
   ("PPFlag", KBool, PBool true, "post_process_flag");
   ("threshold", KReal, PReal (dec (-1) 4), "threshold");
   ("PPOption", KInt, PInt 1, "post_process_option");
   ("path", KStr, PStr (lit "impa"), "")]%string.

(** the files and folders named on the command line *)
Definition files_ok (gs : list (text * text)) (filt0 pp0 : bool) (alpha0 : pyv) (p : program) : Prop :=
  exists filt pp random save out inp file alpha w aw,
    says gs (lit "filteringFlag") KBool (PBool filt0) (PBool filt) /\
    says gs (lit "PPFlag") KBool (PBool pp0) (PBool pp) /\
    says gs (lit "randomTestFlag") KBool (PBool false) (PBool random) /\
    says gs (lit "saveFlag") KBool (PBool false) (PBool save) /\
    says gs (lit "outputPath") KStr (PStr (lit "../../data/impa_output")) (PStr out) /\
    says gs (lit "inputPath") KStr (PStr (lit "../../data/impa_input")) (PStr inp) /\
    says gs (lit "testFile") KInt (PInt 9000) (PInt file) /\
    says gs (lit "alpha") KReal alpha0 (PReal (Fin alpha)) /\ whole file w /\ one_digit alpha aw /\
    g_folder p = data_dir ++ out ++ (if filt then lit "_alpha" ++ aw else []) ++ (if pp then lit "_pp" else []) /\
    g_input p = (if random then None else Some (data_dir ++ inp ++ lit "/inputs_set" ++ w ++ lit ".pkl")) /\
    g_save p = save.

(** ** Proofs *)

Definition decls_of (t : list row) : list decl := help :: map (fun r : row => let '(o, k, v, _) := r in opt o k v) t.
Lemma names_of t : map d_name (decls_of t) = names t.
Proof. unfold decls_of, names. cbn [map]. f_equal. rewrite map_map. apply map_ext. intros [[[o k] v] a]. reflexivity. Qed.
Lemma documented_readable t g : documented t g -> readable (decls_of t) g.
Proof.
  intros (o & k & v & a & x & I & E & M). exists (opt o k v), x. split; [|split; [|exact M]].
  - right. apply in_map_iff. exists (o, k, v, a). auto.
  - symmetry. exact E.
Qed.
Lemma str_int_whole z : whole z (str_int z).
Proof.
  unfold str_int, whole. destruct (Z.ltb_spec z 0).
  - right. exists (Z.to_nat (- z)), (str_nat (Z.to_nat (- z))). split; [lia|]. split; [reflexivity|apply str_nat_ok].
  - left. exists (Z.to_nat z). split; [lia|apply str_nat_ok].
Qed.
Fixpoint distinct (l : list text) : bool :=
  match l with [] => true | n :: l => negb (existsb (teqb n) l) && distinct l end.
Lemma distinct_ok l : distinct l = true -> NoDup l.
Proof.
  induction l as [|n l IH]; cbn [distinct]; [constructor|]. intros H. apply andb_true_iff in H as (H & D).
  constructor; [|auto]. intros I. apply negb_true_iff in H.
  assert (X : existsb (teqb n) l = true) by (apply existsb_exists; exists n; split; [exact I|apply teqb_refl]). congruence.
Qed.
Definition unique_names (t : list row) : bool :=
  distinct (names t) && forallb (fun n => negb (existsb (Ascii.eqb "="%char) n)) (names t).
Lemma unique_ok t : unique_names t = true -> NoDup (names t) /\ Forall (fun m => ~ In "="%char m) (names t).
Proof.
  unfold unique_names. intros F. apply andb_true_iff in F as (N & F). split; [apply distinct_ok; exact N|].
  apply Forall_forall. intros m I J. rewrite forallb_forall in F. specialize (F m I). apply negb_true_iff in F.
  assert (X : existsb (Ascii.eqb "="%char) m = true) by (apply existsb_exists; exists "="%char; split; [exact J|reflexivity]).
  congruence.
Qed.
Lemma read_args t gs argv : unique_names t = true -> command_line (names t) gs argv -> Forall (documented t) gs ->
  exists ns, parse (decls_of t) argv [] = Some ns /\
    Forall (fun r : row => let '(o, k, v, _) := r in exists x, arg (decls_of t) ns o = Some x /\ says gs (lit o) k v x) t.
Proof.
  intros U C D. apply unique_ok in U as (ND & NE). rewrite <- names_of in ND, NE, C.
  destruct (arg_ok (decls_of t) gs argv ND NE C) as (ns & P & L).
  { eapply Forall_impl; [|exact D]. intros g. apply documented_readable. }
  exists ns. split; [exact P|]. apply Forall_forall. intros [[[o k] v] a] I. apply L. right.
  apply in_map_iff. exists (o, k, v, a). auto.
Qed.
Lemma table_rows (t : list row) gs obj :
  Forall (fun r : row => let '(o, k, v, a) := r in a <> ""%string -> exists x, lookup (lit a) obj = Some x /\ says gs (lit o) k v x) t ->
  object_ok t gs obj.
Proof. intros F o k v a I. rewrite Forall_forall in F. exact (F _ I). Qed.

Lemma folder_ok f pp alpha path : output_folder f pp alpha path =
  data_dir ++ path ++ (if f then lit "_alpha" ++ fmt alpha else []) ++ (if pp then lit "_pp" else []).
Proof. unfold output_folder, data_dir. destruct f, pp; rewrite <- ?app_assoc, ?app_nil_r; reflexivity. Qed.
Lemma input_ok r path z : input_file r path z =
  if r then None else Some (data_dir ++ path ++ lit "/inputs_set" ++ str_int z ++ lit ".pkl").
Proof. unfold input_file, data_dir. destruct r; rewrite <- ?app_assoc; reflexivity. Qed.

Ltac unpack L := repeat match type of L with
  | Forall _ (_ :: _) => let A := fresh "A" in let S := fresh "S" in let x := fresh "x" in
      apply Forall_cons_iff in L; destruct L as ((x & A & S) & L)
  end.
Ltac shapes := repeat match goal with
  | S : says _ _ KInt (PInt _) ?x |- _ => is_var x; let z := fresh "z" in destruct (says_int _ _ _ _ S) as (z & ->)
  | S : says _ _ KStr (PStr _) ?x |- _ => is_var x; let z := fresh "z" in destruct (says_str _ _ _ _ S) as (z & ->)
  | S : says _ _ KBool (PBool _) ?x |- _ => is_var x; let z := fresh "z" in destruct (says_bool _ _ _ _ S) as (z & ->)
  end.
Ltac rows := repeat (constructor; [first [intros X; exfalso; apply X; reflexivity
   | intros _; eexists; split; [cbv -[output_folder input_file]; reflexivity|eassumption]]|]); constructor.

(** main_tsp.py: every attribute of the solver object has the value that the last setting of its
    option gives, or else the documented default; the results folder, the input file and the decision
    to save are those of the options. *)
Theorem C65_tsp : forall gs argv, command_line (names tsp_table) gs argv -> Forall (documented tsp_table) gs ->
  exists p, main_tsp argv = Some p /\ object_ok tsp_table gs (g_object p) /\
    files_ok gs false true (PReal (dec 7 1)) p.
Proof.
  intros gs argv C D. destruct (read_args tsp_table gs argv) as (ns & P & L); auto.
  change (decls_of tsp_table) with tsp_decls in *. unfold main_tsp. rewrite P. cbn [bind]. clear P C D.
  unfold tsp_table in L. unpack L. clear L. destruct (says_real _ _ _ _ _ S9) as (q & ->). shapes.
  unfold locals, tsp_locals. cbn [mapM fst snd].
  rewrite A, A0, A1, A2, A3, A4, A5, A6, A7, A8, A9, A10, A11, A12, A13, A14, A15, A16, A17, A18. cbn [bind].
  clear A A0 A1 A2 A3 A4 A5 A6 A7 A8 A9 A10 A11 A12 A13 A14 A15 A16 A17 A18.
  eexists. split; [cbv -[output_folder input_file]; reflexivity|].
  split; [apply table_rows; unfold tsp_table; rows|]. cbn [g_folder g_input g_save].
  unfold files_ok. do 7 eexists. exists q. do 2 eexists.
  do 8 (split; [eassumption|]). split; [apply str_int_whole|]. split; [apply fmt_ok|].
  split; [apply folder_ok|]. split; [apply input_ok|]. reflexivity.
Qed.

(** main_ksat.py: the same, unless the clauses are not smaller than the number of variables, in
    which case the program stops. *)
Theorem C65_ksat : forall gs argv k nv, command_line (names ksat_table) gs argv -> Forall (documented ksat_table) gs ->
  says gs (lit "kVariable") KInt (PInt 3) (PInt k) -> says gs (lit "nVariables") KInt (PInt 10) (PInt nv) ->
  ((k < nv)%Z -> exists p, main_ksat argv = Some p /\ object_ok ksat_table gs (g_object p) /\
     files_ok gs true false (PReal (dec 5 1)) p) /\
  ((nv <= k)%Z -> main_ksat argv = None).
Proof.
  intros gs argv k nv C D Sk Sn. destruct (read_args ksat_table gs argv) as (ns & P & L); auto.
  change (decls_of ksat_table) with ksat_decls in *. unfold main_ksat. rewrite P. cbn [bind]. clear P C D.
  unfold ksat_table in L. unpack L. clear L. destruct (says_real _ _ _ _ _ S6) as (q & ->).
  assert (x0 = PInt nv) by (destruct (says_int _ _ _ _ S0) as (z & ->); f_equal; apply (says_int_det _ _ _ _ _ S0 Sn)).
  assert (x2 = PInt k) by (destruct (says_int _ _ _ _ S2) as (z & ->); f_equal; apply (says_int_det _ _ _ _ _ S2 Sk)).
  subst x0 x2. shapes.
  unfold locals, ksat_locals. cbn [mapM fst snd].
  rewrite A, A0, A1, A2, A3, A4, A5, A6, A7, A8, A9, A10, A11, A12, A13, A14, A15. cbn [bind].
  clear A A0 A1 A2 A3 A4 A5 A6 A7 A8 A9 A10 A11 A12 A13 A14 A15.
  match goal with |- context [bind_args ?a ?b ?e] => set (env := e) end.
  replace (bind (lookup (lit "K_VARIABLE") env) as_int) with (Some k) by (cbv -[Z.leb]; reflexivity).
  replace (bind (lookup (lit "NUM_VARIABLES") env) as_int) with (Some nv) by (cbv -[Z.leb]; reflexivity).
  cbn [bind]. destruct (Z.leb_spec nv k); (split; intros ?; [|lia || reflexivity]); [lia|]. unfold env; clear env.
  eexists. split; [cbv -[output_folder input_file]; reflexivity|].
  split; [apply table_rows; unfold ksat_table; rows|]. cbn [g_folder g_input g_save].
  unfold files_ok. do 7 eexists. exists q. do 2 eexists.
  do 8 (split; [eassumption|]). split; [apply str_int_whole|]. split; [apply fmt_ok|].
  split; [apply folder_ok|]. split; [apply input_ok|]. reflexivity.
Qed.

(** main_kc_mwm.py *)
Theorem C65_kc : forall gs argv, command_line (names kc_table) gs argv -> Forall (documented kc_table) gs ->
  exists obj files, main_kc argv = Some (obj, files) /\ object_ok kc_table gs obj /\
    files = [lit "../../data/inputs_1000/inputs_set0.pkl"].
Proof.
  intros gs argv C D. destruct (read_args kc_table gs argv) as (ns & P & L); auto.
  change (decls_of kc_table) with kc_decls in *. unfold main_kc. rewrite P. cbn [bind]. clear P C D.
  unfold kc_table in L. unpack L. clear L. shapes.
  unfold locals, kc_locals. cbn [mapM fst snd].
  rewrite A, A0, A1, A2, A3, A4, A5. cbn [bind]. clear A A0 A1 A2 A3 A4 A5.
  eexists. eexists. split; [cbv; reflexivity|].
  split; [apply table_rows; unfold kc_table; rows|]. reflexivity.
Qed.

(** ** What the options cannot say *)

(** Full statement: a flag can be switched off by giving it the value False.  False: [type=bool] takes
    every word that is not empty for True. *)
Theorem C65_flag_off_refuted : exists argv p,
  argv = [lit "--PPFlag"; lit "False"; lit "--filteringFlag=0"] /\
  main_tsp argv = Some p /\
  lookup (lit "post_process_flag") (g_object p) = Some (PBool true) /\
  lookup (lit "filtering_flag") (g_object p) = Some (PBool true).
Proof. eexists. eexists. split; [reflexivity|]. split; [vm_compute; reflexivity|]. split; vm_compute; reflexivity. Qed.
(** Full statement: when the formula comes from a file, the options about its size do not matter (they
    are replaced by the sizes in the file, Impa.py:2271-2274).  False: they can stop the program. *)
Theorem C65_file_sizes_refuted : exists a b p, a = [lit "--nVariables"; lit "3"] /\ b = [] /\
  main_ksat b = Some p /\ g_input p <> None /\ main_ksat a = None.
Proof.
  eexists. eexists. eexists. split; [reflexivity|]. split; [reflexivity|]. split; [vm_compute; reflexivity|].
  split; [vm_compute; discriminate|vm_compute; reflexivity].
Qed.
(** Full statement: runs with different filtering rates keep their results apart.  False: the folder
    name has one digit of the rate only. *)
Theorem C65_folders_refuted : exists a b pa pb,
  main_tsp [lit "--filteringFlag=1"; lit "--alpha"; a] = Some pa /\
  main_tsp [lit "--filteringFlag=1"; lit "--alpha"; b] = Some pb /\
  lookup (lit "alpha") (g_object pa) <> lookup (lit "alpha") (g_object pb) /\ g_folder pa = g_folder pb.
Proof.
  exists (lit "0.51"), (lit "0.49"). eexists. eexists.
  split; [vm_compute; reflexivity|]. split; [vm_compute; reflexivity|].
  split; [vm_compute; intros E; discriminate|reflexivity].
Qed.

(** ** Example: abbreviations, both ways of writing a setting, a negative number, a repeated option *)
Definition settings1 : list (text * text) :=
  [(lit "nITER", lit "50"); (lit "threshold", lit "-0.25"); (lit "augmFlag", lit "True"); (lit "nITER", lit "120");
   (lit "outputPath", lit "runs"); (lit "PPFlag", lit "")].
Definition argv1 : list text :=
  [lit "--nITER"; lit "50"; lit "--thr"; lit "-0.25"; lit "--augmFlag=True"; lit "--nI=120"; lit "--outputPath"; lit "runs";
   lit "--PPFlag="].
Lemma exact_name (t : list row) n : In n (names t) -> abbreviates (names t) n n.
Proof. intros I. split; [exact I|left; reflexivity]. Qed.
Lemma abbreviation (t : list row) s n : In n (names t) ->
  forallb (fun m => negb (starts s m) || teqb m n) (names t) = true -> starts s n = true -> abbreviates (names t) s n.
Proof.
  intros I F S. split; [exact I|right]. split; [apply starts_prefix; exact S|]. intros m Im P.
  rewrite forallb_forall in F. specialize (F m Im). apply starts_prefix in P. rewrite P in F. apply teqb_spec. exact F.
Qed.
Lemma in_names (t : list row) n : existsb (teqb n) (names t) = true -> In n (names t).
Proof. intros E. apply existsb_exists in E as (m & I & E). apply teqb_spec in E. subst. exact I. Qed.
Lemma quarter : real (Q2Qc (-1#4)) (lit "-0.25").
Proof.
  right. exists (lit "0.25"). split; [reflexivity|]. exists (lit "0"), (lit "25").
  split; [repeat constructor; cbn; lia|]. split; [repeat constructor; cbn; lia|].
  split; [right; split; [reflexivity|discriminate]|]. apply Qc_is_canon. vm_compute. reflexivity.
Qed.
Lemma decimal_lit n w : w <> [] -> forallb is_digit w = true -> digits_value w = n -> hd_error w <> Some "0"%char -> decimal n w.
Proof.
  intros N F V Z. split; [exact N|]. split; [|split; [exact V|intros H; contradiction]].
  apply Forall_forall. intros c I. rewrite forallb_forall in F. specialize (F c I). unfold is_digit in F.
  apply andb_true_iff in F as (A & B). apply Nat.leb_le in A, B. unfold is_decimal_digit, code. lia.
Qed.
Example C65_example : command_line (names tsp_table) settings1 argv1 /\ Forall (documented tsp_table) settings1 /\
  exists p, main_tsp argv1 = Some p /\
    lookup (lit "num_iterations") (g_object p) = Some (PInt 120) /\
    lookup (lit "threshold") (g_object p) = Some (PReal (Fin (Q2Qc (-1#4)))) /\
    lookup (lit "augmentation_flag") (g_object p) = Some (PBool true) /\
    lookup (lit "post_process_flag") (g_object p) = Some (PBool false) /\
    g_folder p = lit "../../data/runs" /\
    g_input p = Some (lit "../../data/../../data/impa_input/inputs_set9000.pkl").
Proof.
  split; [|split].
  - exists [[lit "--nITER"; lit "50"]; [lit "--thr"; lit "-0.25"]; [lit "--augmFlag=True"]; [lit "--nI=120"];
            [lit "--outputPath"; lit "runs"]; [lit "--PPFlag="]]. split; [reflexivity|].
    constructor; [apply (setting_two _ _ _ (lit "nITER")); [apply exact_name, in_names; reflexivity|left; discriminate]|].
    constructor; [apply (setting_two _ _ _ (lit "thr"));
      [apply abbreviation; [apply in_names| |]; reflexivity|right; eexists; exact quarter]|].
    constructor; [apply (setting_one _ _ _ (lit "augmFlag")); apply exact_name, in_names; reflexivity|].
    constructor; [apply (setting_one _ _ _ (lit "nI")); apply abbreviation; [apply in_names| |]; reflexivity|].
    constructor; [apply (setting_two _ _ _ (lit "outputPath")); [apply exact_name, in_names; reflexivity|left; discriminate]|].
    constructor; [apply (setting_one _ _ _ (lit "PPFlag")); apply exact_name, in_names; reflexivity|]. constructor.
  - assert (I : forall n m w, n = lit m -> forall k v a x, existsb (fun r : row => let '(o, _, _, _) := r in (o =? m)%string) tsp_table = true ->
      In (m, k, v, a) tsp_table -> means k w x -> documented tsp_table (n, w)).
    { intros n m w -> k v a x _ J M. exists m, k, v, a, x. auto. }
    unfold settings1. constructor; [|constructor; [|constructor; [|constructor; [|constructor; [|constructor; [|constructor]]]]]].
    + exists "nITER"%string, KInt, (PInt 400), "num_iterations"%string, (PInt 50). split; [left; reflexivity|]. split; [reflexivity|].
      left. exists 50. split; [reflexivity|]. apply decimal_lit; try reflexivity; discriminate.
    + exists "threshold"%string, KReal, (PReal (dec (-1) 4)), "threshold"%string, (PReal (Fin (Q2Qc (-1#4)))).
      split; [do 2 right; left; reflexivity|]. split; [reflexivity|]. exact quarter.
    + exists "augmFlag"%string, KBool, (PBool false), "augmentation_flag"%string, (PBool true).
      split; [do 4 right; left; reflexivity|]. split; [reflexivity|]. split; [discriminate|reflexivity].
    + exists "nITER"%string, KInt, (PInt 400), "num_iterations"%string, (PInt 120). split; [left; reflexivity|]. split; [reflexivity|].
      left. exists 120. split; [reflexivity|]. apply decimal_lit; try reflexivity; discriminate.
    + exists "outputPath"%string, KStr, (PStr (lit "../../data/impa_output")), ""%string, (PStr (lit "runs")).
      split; [do 15 right; left; reflexivity|]. split; reflexivity.
    + exists "PPFlag"%string, KBool, (PBool true), "post_process_flag"%string, (PBool false).
      split; [do 17 right; left; reflexivity|]. split; [reflexivity|]. split; [discriminate|intros X; exfalso; apply X; reflexivity].
  - eexists. split; [vm_compute; reflexivity|]. repeat (split; [vm_compute; reflexivity|]). vm_compute; reflexivity.
Qed.
Example C65_ksat_example : main_ksat [lit "--kVariable=4"; lit "--nVar"; lit "5"; lit "--randomTestFlag=yes"] <> None
  /\ main_ksat [lit "--kVariable=5"; lit "--nVar"; lit "5"] = None
  /\ main_ksat [lit "--n"; lit "5"] = None.
Proof. split; [vm_compute; discriminate|]. split; vm_compute; reflexivity. Qed.

Print Assumptions C65_tsp.
Print Assumptions C65_ksat.
Print Assumptions C65_kc.
Print Assumptions C65_flag_off_refuted.
Print Assumptions C65_file_sizes_refuted.
Print Assumptions C65_folders_refuted.
