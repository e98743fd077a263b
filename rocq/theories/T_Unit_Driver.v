(** * C99: the two halves of a unit test run the same test with the same settings. *)
From Coq Require Import Ascii String ZArith Qcanon.
From Verif Require Import Num NumFacts Arr ArrFacts SpecCnf SpecCli M_Cnf P_Cnf M_Cli P_Cli M_Unit_Driver P_Unit_Driver.
From Verif Require T_Cli.
Local Open Scope nat_scope.

(** what the text of a shell variable says *)
Definition number (w : text) (x : val) : Prop := exists z, x = VInt z /\ whole z w.
Definition switch (w : text) (x : val) : Prop := x = VBool true /\ w <> [].
Definition numbers (w : text) (x : val) : Prop := exists l, x = VList l /\ comma_list l w.
(** number of edges of the complete directed graph with that many nodes *)
Definition edges (w : text) (x : val) : Prop := exists z, x = VInt (z * (z - 1)) /\ whole z w.

(** A row: tests; function of the Python program; function of the C++ program; settings: argument of the Python function,
    constant of the C++ function, variable of the script, what it says. *)
Definition row : Type := list string * string * string * list (string * string * string * (text -> val -> Prop)).
(** all values passed under the name [k] *)
Definition passed (k : text) (args : list (text * val)) : list val := map snd (filter (fun a => teqb k (fst a)) args).
(** Both programs call the functions of the row of test [t], and get the same values, those that the script says. *)
Definition same_settings (rows : list row) (vars : shell) (python cpp : option (list call)) (t : string) : Prop :=
  exists names pf cf shared draws a b,
    In (names, pf, cf, shared) rows /\ In t names /\ python = Some (draws ++ [a]) /\ cpp = Some [b] /\
    c_fun a = pf /\ c_fun b = cf /\ lookup (lit "ut_name") (c_args a) = Some (VText (lit t)) /\
    Forall (fun s : string * string * string * (text -> val -> Prop) => let '(k, c, v, says) := s in
      exists x, lookup (lit c) (c_args b) = Some x /\ says (vars v) x /\
        passed (lit k) (flat_map c_args (draws ++ [a])) <> [] /\
        Forall (eq x) (passed (lit k) (flat_map c_args (draws ++ [a])))) shared.

Definition whole_numbers (vars : shell) : list string -> Prop := Forall (fun v => exists z, whole z (vars v)).
Definition reals (vars : shell) : list string -> Prop := Forall (fun v => exists q, real q (vars v)).

Definition tsp_rows : list row :=
  [(["ExtrinsicOutputEdgeEcRelaxedGraphUpdate"; "ExtrinsicOutputEdgeEcAugmentedGraphUpdate"],
    "ut_input_output.ut_io", "ut_input_output_tsp",
    [("n_nodes", "N_NODES", "N_NODES", number); ("n_edge_variables", "N_EDGE_VARIABLES", "N_NODES", edges);
     ("n_subtours", "N_SUBTOURS", "N_SUBTOURS", number)]);
   (["DegreeConstraint2EdgeEcUpdate"], "ut_update_degree_constraint.ut_degree_constraint", "ut_degree_constraint",
    [("n_nodes", "N_NODES", "N_NODES", number); ("n_edge_variables", "N_EDGE_VARIABLES", "N_NODES", edges);
     ("filt_flag", "FILT_FLAG", "FILT_FLAG", switch)]);
   (["SubtourConstraints2EdgeEcUpdate"], "ut_subtour_elimination_constraint.ut_subtour_constraint", "ut_subtour_constraint",
    [("n_nodes", "N_NODES", "N_NODES", number); ("n_edge_variables", "N_EDGE_VARIABLES", "N_NODES", edges);
     ("n_subtours", "N_SUBTOURS", "N_SUBTOURS", number); ("filt_flag", "FILT_FLAG", "FILT_FLAG", switch)]);
   (["EdgeEc2DegreeConstraintRelaxedGraphUpdate"; "EdgeEc2SubtourConstraintsUpdate"; "EdgeEc2DegreeConstraintAugmentedGraphUpdate"],
    "ut_update_equality_constraint.ut_equality_constraint", "ut_equality_constraint_tsp",
    [("n_nodes", "N_NODES", "N_NODES", number); ("n_edge_variables", "N_EDGE_VARIABLES", "N_NODES", edges);
     ("n_subtours", "N_SUBTOURS", "N_SUBTOURS", number); ("filt_flag", "FILT_FLAG", "FILT_FLAG", switch)]);
   (["IterateRelaxedGraph"; "IterateAugmentedGraph"], "ut_graphical_model.ut_model_graph", "ut_model_graph_tsp",
    [("n_nodes", "N_NODES", "N_NODES", number); ("n_iter", "N_ITER", "N_ITER", number);
     ("filt_flag", "FILT_FLAG", "FILT_FLAG", switch)])]%string.
Definition ksat_rows : list row :=
  [(["ExtrinsicOutputVariableEcUpdate"], "ut_input_output.ut_io", "ut_input_output_ksat",
    [("n_variables", "NUM_VARIABLES", "NUM_VARIABLES", number); ("n_constraints", "NUM_CONSTRAINTS", "NUM_CONSTRAINTS", number)]);
   (["VariableEc2KsatConstraintUpdate"], "ut_update_equality_constraint.ut_equality_constraint", "ut_equality_constraint_ksat",
    [("n_variables", "NUM_VARIABLES", "NUM_VARIABLES", number); ("num_variables", "NUM_VARIABLES", "NUM_VARIABLES", number);
     ("k_variable", "K_VARIABLE", "K_VARIABLE", number); ("filt_flag", "FILT_FLAG", "FILT_FLAG", switch)]);
   (["KsatConstraint2VariableEcUpdate"], "ut_update_ksat_constraint.ut_ksat_constraint", "ut_ksat_constraint",
    [("n_variables", "NUM_VARIABLES", "NUM_VARIABLES", number); ("num_variables", "NUM_VARIABLES", "NUM_VARIABLES", number);
     ("k_variable", "K_VARIABLE", "K_VARIABLE", number); ("filt_flag", "FILT_FLAG", "FILT_FLAG", switch)]);
   (["Iterate"], "ut_graphical_model.ut_model_graph", "ut_model_graph_ksat",
    [("n_variables", "NUM_VARIABLES", "NUM_VARIABLES", number); ("k_variable", "K_VARIABLE", "K_VARIABLE", number);
     ("n_iter", "N_ITER", "N_ITER", number); ("filt_flag", "FILT_FLAG", "FILT_FLAG", switch)])]%string.
Definition kc_rows : list row :=
  [(["Oric2TeamUpdate"; "Oric2ProjectEcUpdate"], "ut_update_or_inequality_constraint.ut_oric", "ut_oric",
    [("n_departments", "N_DEPARTMENTS", "N_DEPARTMENTS", number); ("n_projects", "N_PROJECTS", "N_PROJECTS", number)]);
   (["ExtrinsicOutputTeamUpdate"; "IntrinsicOutMwmUpdate"], "ut_input_output.ut_io", "ut_input_output_kc_mwm",
    [("n_departments", "N_DEPARTMENT", "N_DEPARTMENTS", number); ("n_projects", "N_PROJECTS", "N_PROJECTS", number)]);
   (["TeamEc2OricUpdate"; "ProjectEqConst2OricUpdate"], "ut_update_equality_constraint.ut_eq_consraint", "ut_eq_constraint_kc_mwm",
    [("n_departments", "N_DEPARTMENTS", "N_DEPARTMENTS", number); ("n_projects", "N_PROJECTS", "N_PROJECTS", number)]);
   (["ProjectInequalityConstraintUpdate"], "ut_project_inequality_constraint.ut_project_ineq_constraint",
    "ut_project_ineq_constraint",
    [("n_departments", "N_DEPARTMENTS", "N_DEPARTMENTS", number); ("n_projects", "N_PROJECTS", "N_PROJECTS", number)]);
   (["KnapsackForward"; "KnapsackBackward"], "ut_knapsack.ut_forward_backward", "ut_forward_backward",
    [("N_u", "Nu", "Nu", numbers); ("filtering_flag", "FILT_FLAG", "FILT_FLAG", switch)]);
   (["ExtrinsicOutputDepartment"], "ut_knapsack.ut_extrinsic_output_department", "ut_extrinsic_output_department",
    [("N_u", "Nu", "Nu", numbers); ("filtering_flag", "FILT_FLAG", "FILT_FLAG", switch)]);
   (["Team2KnapsackUpdate"], "ut_knapsack.ut_team_to_knapsack_update", "ut_team_to_knapsack_update",
    [("N_u", "Nu", "Nu", numbers); ("filtering_flag", "FILT_FLAG", "FILT_FLAG", switch)]);
   (["ProcessExtrinsicOutputDepartment"], "ut_knapsack.ut_process_extrinsic_output_department",
    "ut_process_extrinsic_output_department",
    [("N_u", "Nu", "Nu", numbers); ("filtering_flag", "FILT_FLAG", "FILT_FLAG", switch); ("N_ITER", "N_ITER", "N_ITER", number)]);
   (["Iterate"], "ut_graphical_model.ut_iterate", "ut_iterate_kc_mwm",
    [("N_u", "Nu", "Nu", numbers); ("filtering_flag", "FILT_FLAG", "FILT_FLAG", switch); ("N_ITER", "N_ITER", "N_ITER", number);
     ("n_projects", "N_PROJECTS", "N_PROJECTS", number)]);
   (["IterateSampleGraph"], "ut_graphical_model.ut_iterate_sample_graph", "ut_iterate_sample_graph_kc_mwm",
    [("filtering_flag", "FILT_FLAG", "FILT_FLAG", switch); ("N_ITER", "N_ITER", "N_ITER", number)])]%string.

(** ** Proofs *)

Definition pairs_of (vars : shell) (l : list (string * string)) : list (text * text) :=
  map (fun ov : string * string => (lit (fst ov), vars (snd ov))) l.
Definition good_decls (decls : list decl) : bool :=
  T_Cli.distinct (map d_name decls) && forallb (fun n => negb (existsb (Ascii.eqb "="%char) n)) (map d_name decls).
Lemma driver_args decls vars l : good_decls decls = true ->
  Forall (fun ov => exists k v, In (opt (fst ov) k v) decls /\ reads k (vars (snd ov))) l ->
  exists ns, parse decls (words_of vars l) [] = Some ns /\
    forall n k v, In (opt n k v) decls -> exists x, arg decls ns n = Some x /\ says (pairs_of vars l) (lit n) k v x.
Proof.
  intros G F. apply andb_true_iff in G as (N & E). apply (arg_ok decls (pairs_of vars l)).
  - apply T_Cli.distinct_ok. exact N.
  - apply Forall_forall. intros m I J. rewrite forallb_forall in E. specialize (E m I). apply negb_true_iff in E.
    assert (X : existsb (Ascii.eqb "="%char) m = true) by (apply existsb_exists; exists "="%char; split; [exact J|reflexivity]).
    congruence.
  - apply words_line. eapply Forall_impl; [|exact F]. intros ov (k & v & I & _).
    change (lit (fst ov)) with (d_name (opt (fst ov) k v)). apply in_map. exact I.
  - apply Forall_forall. intros g I. apply in_map_iff in I as (ov & <- & I). rewrite Forall_forall in F.
    destruct (F _ I) as (k & v & Io & x & M). exists (opt (fst ov) k v), x. auto.
Qed.
Lemma get decls gs ns (H : forall n k v, In (opt n k v) decls -> exists x, arg decls ns n = Some x /\ says gs (lit n) k v x) n k v w :
  In (opt n k v) decls -> last_setting (lit n) gs = Some w -> exists x, arg decls ns n = Some x /\ means k w x.
Proof. intros I L. destruct (H n k v I) as (x & A & S). exists x. split; [exact A|]. unfold says in S. rewrite L in S. exact S. Qed.
Lemma means_int w x : means KInt w x -> exists z, x = PInt z /\ whole z w.
Proof. destruct x as [z|[q| | |]|b|s]; cbn; try contradiction. eauto. Qed.
Lemma means_bool w x : means KBool w x -> x = PBool match w with [] => false | _ => true end.
Proof.
  destruct x as [z|[q| | |]|b|s]; cbn; try contradiction. intros H. f_equal. destruct w, b; try reflexivity.
  - destruct (proj1 H eq_refl eq_refl).
  - apply (proj2 H). discriminate.
Qed.
Lemma means_str w x : means KStr w x -> x = PStr w.
Proof. destruct x as [z|[q| | |]|b|s]; cbn; try contradiction. congruence. Qed.
Lemma py_main_at decls branches argv ns t b : parse decls argv [] = Some ns -> arg decls ns "ut_name" = Some (PStr t) ->
  find (fun b => existsb (fun n => teqb (lit n) t) (fst b)) branches = b ->
  py_main decls branches argv = match b with Some b => mapM (py_call decls ns) (snd b) | None => Some [] end.
Proof. intros P A <-. unfold py_main. rewrite P. cbn [bind]. rewrite A. reflexivity. Qed.
Lemma cpp_main_at branches getenv t bs : getenv "test_name"%string = Some t ->
  filter (fun b => existsb (fun n => teqb (lit n) t) (fst b)) branches = bs ->
  cpp_main branches getenv = mapM (fun b => cpp_call getenv (snd b)) bs.
Proof. intros G <-. unfold cpp_main. rewrite G. reflexivity. Qed.
Lemma on (w : text) : w <> [] -> match w with [] => false | _ => true end = true.
Proof. destruct w; congruence. Qed.

(** the values that the options of a script get *)
Section Args.
Context (decls : list decl) (gs : list (text * text)) (ns : list (text * pyv)).
Context (H : forall n k v, In (opt n k v) decls -> exists x, arg decls ns n = Some x /\ says gs (lit n) k v x).
Lemma get_int n v w z : In (opt n KInt v) decls -> last_setting (lit n) gs = Some w -> whole z w -> arg decls ns n = Some (PInt z).
Proof.
  intros I L W. destruct (get _ _ _ H _ _ _ _ I L) as (x & A & M). apply means_int in M as (z' & -> & W').
  rewrite A. f_equal. f_equal. exact (whole_det _ _ _ W' W).
Qed.
Lemma get_str n v w : In (opt n KStr v) decls -> last_setting (lit n) gs = Some w -> arg decls ns n = Some (PStr w).
Proof. intros I L. destruct (get _ _ _ H _ _ _ _ I L) as (x & A & M). apply means_str in M as ->. exact A. Qed.
Lemma get_on n v w : In (opt n KBool v) decls -> last_setting (lit n) gs = Some w -> w <> [] -> arg decls ns n = Some (PBool true).
Proof. intros I L N. destruct (get _ _ _ H _ _ _ _ I L) as (x & A & M). apply means_bool in M as ->. rewrite A, (on _ N). reflexivity. Qed.
Lemma get_any n k v : In (opt n k v) decls -> exists x, arg decls ns n = Some x.
Proof. intros I. destruct (H _ _ _ I) as (x & A & _). eauto. Qed.
End Args.

Ltac is_in := solve [repeat (first [left; reflexivity|right])].
Ltac readable_words := repeat (constructor; [cbn [fst snd]; eexists; eexists; split; [is_in|]; cbn [unset];
   first [apply reads_bool|apply reads_str|eapply reads_int; eassumption|eapply reads_real; eassumption]|]); constructor.

Section Tsp.
Context (vars : shell).
Context (N : whole_numbers vars ["sub_test_number"; "total_sub_tests"; "N_NODES"; "N_SUBTOURS"; "N_ITER"]%string).
Context (R : reals vars ["ALPHA"; "threshold"]%string).
Lemma tsp_args : exists ns nodes subtours iters,
  whole nodes (vars "N_NODES"%string) /\ whole subtours (vars "N_SUBTOURS"%string) /\ whole iters (vars "N_ITER"%string) /\
  parse ut_tsp_decls (tsp_words vars) [] = Some ns /\
  arg ut_tsp_decls ns "ut_name" = Some (PStr (vars "test_name"%string)) /\ arg ut_tsp_decls ns "nNodes" = Some (PInt nodes) /\
  arg ut_tsp_decls ns "nSubtours" = Some (PInt subtours) /\ arg ut_tsp_decls ns "nIter" = Some (PInt iters) /\
  (vars "FILT_FLAG"%string <> [] -> arg ut_tsp_decls ns "fFlag" = Some (PBool true)) /\
  (exists x, arg ut_tsp_decls ns "alpha" = Some x) /\ (exists x, arg ut_tsp_decls ns "threshold" = Some x) /\
  (exists x, arg ut_tsp_decls ns "augmFlag" = Some x) /\
  arg ut_tsp_decls ns "symFlag" = Some (PBool (teqb (vars "SYM_FLAG"%string) (lit "true"))).
Proof.
  unfold whole_numbers in N. unfold reals in R. rewrite !Forall_cons_iff in N. rewrite !Forall_cons_iff in R.
  destruct N as ((z1 & W1) & (z2 & W2) & (n & Wn) & (s & Ws) & (i & Wi) & _), R as ((a & Ra) & (th & Rt) & _).
  unfold tsp_words. destruct (teqb (vars "SYM_FLAG"%string) (lit "true")) eqn:Sym; cbn [app].
  1: apply teqb_spec in Sym.
  all: match goal with |- context [words_of vars ?l] =>
    destruct (driver_args ut_tsp_decls vars l) as (ns & P & H); [vm_compute; reflexivity|readable_words|] end.
  all: exists ns, n, s, i; rewrite P.
  all: split; [exact Wn|]; split; [exact Ws|]; split; [exact Wi|]; split; [reflexivity|].
  all: split; [eapply (get_str _ _ _ H); [is_in|reflexivity]|].
  all: split; [eapply (get_int _ _ _ H); [is_in|reflexivity|exact Wn]|].
  all: split; [eapply (get_int _ _ _ H); [is_in|reflexivity|exact Ws]|].
  all: split; [eapply (get_int _ _ _ H); [is_in|reflexivity|exact Wi]|].
  all: split; [intros F; eapply (get_on _ _ _ H); [is_in|reflexivity|exact F]|].
  all: split; [eapply (get_any _ _ _ H); is_in|]; split; [eapply (get_any _ _ _ H); is_in|].
  all: split; [eapply (get_any _ _ _ H); is_in|].
  - eapply (get_on _ _ _ H); [is_in|reflexivity|]. intros E. change (vars "SYM_FLAG"%string = []) in E.
    rewrite Sym in E. discriminate E.
  - destruct (H "symFlag"%string KBool (PBool false)) as (x & A & S); [is_in|]. rewrite A. f_equal. exact S.
Qed.
End Tsp.

Lemma edges_eq z : (z * z - z = z * (z - 1))%Z.
Proof. lia. Qed.
Ltac branches := match goal with |- context [find ?f ?l] => let b := eval vm_compute in (find f l) in change (find f l) with b end;
  match goal with |- context [filter ?f ?l] => let b := eval vm_compute in (filter f l) in change (filter f l) with b end;
  unfold py_call, cpp_call; cbn [mapM py_source fst snd app].
Ltac getenv exports vars := repeat match goal with |- context [env exports vars ?v] =>
   change (env exports vars v) with (Some (vars v)) end.
Ltac settings := repeat match goal with
  | |- Forall (fun _ : string * string * string * _ => _) (_ :: _) =>
      constructor; [eexists; split; [reflexivity|]; split; [|split; [discriminate|repeat constructor]]|]
  | |- Forall (fun _ : string * string * string * _ => _) [] => constructor
  end.
Ltac nth_row skip draws := do 4 eexists; exists draws; do 2 eexists; cbn [app flat_map c_args c_fun];
  split; [skip; left; reflexivity|]; split; [is_in|]; split; [reflexivity|]; split; [reflexivity|];
  split; [reflexivity|]; split; [reflexivity|]; split; [reflexivity|]; settings.
Ltac some_row draws := unfold same_settings; first [nth_row ltac:(do 0 right) draws|nth_row ltac:(do 1 right) draws|nth_row ltac:(do 2 right) draws|nth_row ltac:(do 3 right) draws|nth_row ltac:(do 4 right) draws
  |nth_row ltac:(do 5 right) draws|nth_row ltac:(do 6 right) draws|nth_row ltac:(do 7 right) draws|nth_row ltac:(do 8 right) draws|nth_row ltac:(do 9 right) draws].
Ltac said F := first [eexists; split; [reflexivity|eassumption] | split; [reflexivity|exact F]
  | eexists; split; [f_equal; apply edges_eq|eassumption]].

Theorem C99_tsp : forall vars t, In t tsp_unit_tests -> vars "test_name"%string = lit t ->
  whole_numbers vars ["sub_test_number"; "total_sub_tests"; "N_NODES"; "N_SUBTOURS"; "N_ITER"]%string ->
  reals vars ["ALPHA"; "threshold"]%string -> vars "FILT_FLAG"%string <> [] ->
  same_settings tsp_rows vars (python_tsp vars) (cpp_tsp vars) t.
Proof.
  intros vars t It Et N R F.
  destruct (tsp_args vars N R) as (ns & n & s & i & Wn & Ws & Wi & P & Au & An & As & Ai & Af & (al & Aa) & (th & At) & (ag & Ag) & Asy).
  specialize (Af F). rewrite Et in Au.
  assert (En : atoi (vars "N_NODES"%string) = n) by (apply atoi_whole; exact Wn).
  assert (Es : atoi (vars "N_SUBTOURS"%string) = s) by (apply atoi_whole; exact Ws).
  assert (Ei : atoi (vars "N_ITER"%string) = i) by (apply atoi_whole; exact Wi).
  assert (Gt : env tsp_exports vars "test_name" = Some (lit t)) by (unfold env; cbn [existsb tsp_exports]; rewrite <- Et; reflexivity).
  unfold python_tsp, cpp_tsp, tsp_unit_tests in *.
  repeat (destruct It as [<-|It]; [|]); [..|destruct It].
  all: match type of Au with _ = Some (PStr ?t) => rewrite (py_main_at _ _ _ ns t _ P Au eq_refl), (cpp_main_at _ _ t _ Gt eq_refl) end.
  all: branches; getenv tsp_exports vars; rewrite ?Au, ?An, ?As, ?Ai, ?Af, ?Aa, ?At, ?Ag, ?Asy;
    cbn [bind option_map as_int as_str of_py read_env]; rewrite ?En, ?Es, ?Ei.
  all: some_row (@nil call); said F.
Qed.

Section Ksat.
Context (vars : shell).
Context (N : whole_numbers vars
  ["sub_test_number"; "total_sub_tests"; "NUM_VARIABLES"; "NUM_CONSTRAINTS"; "K_VARIABLE"; "N_ITER"; "PP_ELEMENTS"]%string).
Context (R : reals vars ["ALPHA"; "threshold"; "IM_VARIANCE"]%string).
Lemma ksat_args : exists ns nv nc k iters,
  whole nv (vars "NUM_VARIABLES"%string) /\ whole nc (vars "NUM_CONSTRAINTS"%string) /\ whole k (vars "K_VARIABLE"%string) /\
  whole iters (vars "N_ITER"%string) /\ parse ut_ksat_decls (ksat_words vars) [] = Some ns /\
  arg ut_ksat_decls ns "ut_name" = Some (PStr (vars "test_name"%string)) /\ arg ut_ksat_decls ns "nVariables" = Some (PInt nv) /\
  arg ut_ksat_decls ns "nConstraints" = Some (PInt nc) /\ arg ut_ksat_decls ns "kVariable" = Some (PInt k) /\
  arg ut_ksat_decls ns "nITER" = Some (PInt iters) /\
  (vars "FILT_FLAG"%string <> [] -> arg ut_ksat_decls ns "filteringFlag" = Some (PBool true)) /\
  (exists x, arg ut_ksat_decls ns "alpha" = Some x) /\ (exists x, arg ut_ksat_decls ns "threshold" = Some x) /\
  (exists x, arg ut_ksat_decls ns "var" = Some x) /\ (exists x, arg ut_ksat_decls ns "typeMetrics" = Some x).
Proof.
  unfold whole_numbers in N. unfold reals in R. rewrite !Forall_cons_iff in N. rewrite !Forall_cons_iff in R.
  destruct N as ((z1 & W1) & (z2 & W2) & (nv & Wv) & (nc & Wc) & (k & Wk) & (i & Wi) & (pp & Wp) & _).
  destruct R as ((a & Ra) & (th & Rt) & (va & Rv) & _).
  unfold ksat_words. match goal with |- context [words_of vars ?l] =>
    destruct (driver_args ut_ksat_decls vars l) as (ns & P & H); [vm_compute; reflexivity|readable_words|] end.
  exists ns, nv, nc, k, i. rewrite P.
  split; [exact Wv|]; split; [exact Wc|]; split; [exact Wk|]; split; [exact Wi|]; split; [reflexivity|].
  split; [eapply (get_str _ _ _ H); [is_in|reflexivity]|].
  split; [eapply (get_int _ _ _ H); [is_in|reflexivity|exact Wv]|].
  split; [eapply (get_int _ _ _ H); [is_in|reflexivity|exact Wc]|].
  split; [eapply (get_int _ _ _ H); [is_in|reflexivity|exact Wk]|].
  split; [eapply (get_int _ _ _ H); [is_in|reflexivity|exact Wi]|].
  split; [intros F; eapply (get_on _ _ _ H); [is_in|reflexivity|exact F]|].
  repeat split; eapply (get_any _ _ _ H); is_in.
Qed.
End Ksat.

Theorem C99_ksat : forall vars t, In t ksat_unit_tests -> vars "test_name"%string = lit t ->
  whole_numbers vars
    ["sub_test_number"; "total_sub_tests"; "NUM_VARIABLES"; "NUM_CONSTRAINTS"; "K_VARIABLE"; "N_ITER"; "PP_ELEMENTS"]%string ->
  reals vars ["ALPHA"; "threshold"; "IM_VARIANCE"]%string -> vars "FILT_FLAG"%string <> [] ->
  same_settings ksat_rows vars (python_ksat vars) (cpp_ksat vars) t.
Proof.
  intros vars t It Et N R F.
  destruct (ksat_args vars N R) as (ns & nv & nc & k & i & Wv & Wc & Wk & Wi & P & Au & Av & Ac & Ak & Ai & Af &
    (al & Aa) & (th & At) & (va & Aw) & (ty & Ay)).
  specialize (Af F). rewrite Et in Au.
  assert (Ev : atoi (vars "NUM_VARIABLES"%string) = nv) by (apply atoi_whole; exact Wv).
  assert (Ec : atoi (vars "NUM_CONSTRAINTS"%string) = nc) by (apply atoi_whole; exact Wc).
  assert (Ek : atoi (vars "K_VARIABLE"%string) = k) by (apply atoi_whole; exact Wk).
  assert (Ei : atoi (vars "N_ITER"%string) = i) by (apply atoi_whole; exact Wi).
  assert (Gt : env ksat_exports vars "test_name" = Some (lit t)) by (unfold env; cbn [existsb ksat_exports]; rewrite <- Et; reflexivity).
  unfold python_ksat, cpp_ksat, ksat_unit_tests in *.
  repeat (destruct It as [<-|It]; [|]); [..|destruct It].
  all: match type of Au with _ = Some (PStr ?t) => rewrite (py_main_at _ _ _ ns t _ P Au eq_refl), (cpp_main_at _ _ t _ Gt eq_refl) end.
  all: branches; getenv ksat_exports vars; rewrite ?Au, ?Av, ?Ac, ?Ak, ?Ai, ?Af, ?Aa, ?At, ?Aw, ?Ay;
    cbn [bind option_map as_int as_str of_py read_env]; rewrite ?Ev, ?Ec, ?Ek, ?Ei.
  1: some_row (@nil call); said F.
  all: match goal with |- same_settings _ _ (Some [?d; _]) _ _ => some_row [d]; said F end.
Qed.

Section Kc.
Context (vars : shell).
Context (N : whole_numbers vars ["sub_test_number"; "total_sub_tests"; "N_DEPARTMENTS"; "N_TEAMS"; "N_PROJECTS"; "N_ITER"]%string).
Context (R : reals vars ["ALPHA"; "threshold"]%string).
Lemma kc_args : exists ns d tm p iters,
  whole d (vars "N_DEPARTMENTS"%string) /\ whole tm (vars "N_TEAMS"%string) /\ whole p (vars "N_PROJECTS"%string) /\
  whole iters (vars "N_ITER"%string) /\ parse ut_kc_decls (kc_words vars) [] = Some ns /\
  arg ut_kc_decls ns "ut_name" = Some (PStr (vars "test_name"%string)) /\ arg ut_kc_decls ns "nDepartments" = Some (PInt d) /\
  arg ut_kc_decls ns "nTeams" = Some (PInt tm) /\ arg ut_kc_decls ns "nProjects" = Some (PInt p) /\
  arg ut_kc_decls ns "nIter" = Some (PInt iters) /\
  (vars "FILT_FLAG"%string <> [] -> arg ut_kc_decls ns "fFlag" = Some (PBool true)) /\
  arg ut_kc_decls ns "Nu" = Some (PStr (vars "Nu"%string)) /\ arg ut_kc_decls ns "pTypes" = Some (PStr (vars "pTypes"%string)) /\
  (exists x, arg ut_kc_decls ns "alpha" = Some x) /\ (exists x, arg ut_kc_decls ns "threshold" = Some x) /\
  (exists x, arg ut_kc_decls ns "ppFlag" = Some x).
Proof.
  unfold whole_numbers in N. unfold reals in R. rewrite !Forall_cons_iff in N. rewrite !Forall_cons_iff in R.
  destruct N as ((z1 & W1) & (z2 & W2) & (d & Wd) & (tm & Wt) & (p & Wp) & (i & Wi) & _).
  destruct R as ((a & Ra) & (th & Rt) & _).
  unfold kc_words. match goal with |- context [words_of vars ?l] =>
    destruct (driver_args ut_kc_decls vars l) as (ns & P & H); [vm_compute; reflexivity|readable_words|] end.
  exists ns, d, tm, p, i. rewrite P.
  split; [exact Wd|]; split; [exact Wt|]; split; [exact Wp|]; split; [exact Wi|]; split; [reflexivity|].
  split; [eapply (get_str _ _ _ H); [is_in|reflexivity]|].
  split; [eapply (get_int _ _ _ H); [is_in|reflexivity|exact Wd]|].
  split; [eapply (get_int _ _ _ H); [is_in|reflexivity|exact Wt]|].
  split; [eapply (get_int _ _ _ H); [is_in|reflexivity|exact Wp]|].
  split; [eapply (get_int _ _ _ H); [is_in|reflexivity|exact Wi]|].
  split; [intros F; eapply (get_on _ _ _ H); [is_in|reflexivity|exact F]|].
  split; [eapply (get_str _ _ _ H); [is_in|reflexivity]|]. split; [eapply (get_str _ _ _ H); [is_in|reflexivity]|].
  repeat split; eapply (get_any _ _ _ H); is_in.
Qed.
End Kc.

Theorem C99_kc : forall vars t, In t kc_unit_tests -> vars "test_name"%string = lit t ->
  whole_numbers vars ["sub_test_number"; "total_sub_tests"; "N_DEPARTMENTS"; "N_TEAMS"; "N_PROJECTS"; "N_ITER"]%string ->
  reals vars ["ALPHA"; "threshold"]%string -> vars "FILT_FLAG"%string <> [] ->
  (exists capacities, comma_list capacities (vars "Nu"%string)) -> (exists types, comma_list types (vars "pTypes"%string)) ->
  same_settings kc_rows vars (python_kc vars) (cpp_kc vars) t.
Proof.
  intros vars t It Et N R F (caps & Lu) (types & Lt).
  destruct (kc_args vars N R) as (ns & d & tm & p & i & Wd & Wt & Wp & Wi & P & Au & Ad & Am & Ap & Ai & Af & An & Ay &
    (al & Aa) & (th & At) & (pf & Aq)).
  specialize (Af F). rewrite Et in Au.
  assert (Ed : atoi (vars "N_DEPARTMENTS"%string) = d) by (apply atoi_whole; exact Wd).
  assert (Ep : atoi (vars "N_PROJECTS"%string) = p) by (apply atoi_whole; exact Wp).
  assert (Ei : atoi (vars "N_ITER"%string) = i) by (apply atoi_whole; exact Wi).
  assert (El : take_int (vars "Nu"%string) = caps) by (apply cpp_list; exact Lu).
  pose proof (py_list _ _ Lu) as Su. pose proof (py_list _ _ Lt) as St.
  assert (Gt : env kc_exports vars "test_name" = Some (lit t)) by (unfold env; cbn [existsb kc_exports]; rewrite <- Et; reflexivity).
  unfold python_kc, cpp_kc, kc_unit_tests in *.
  repeat (destruct It as [<-|It]; [|]); [..|destruct It].
  all: match type of Au with _ = Some (PStr ?t) => rewrite (py_main_at _ _ _ ns t _ P Au eq_refl), (cpp_main_at _ _ t _ Gt eq_refl) end.
  all: branches; getenv kc_exports vars; rewrite ?Au, ?Ad, ?Am, ?Ap, ?Ai, ?Af, ?Aa, ?At, ?Aq, ?An, ?Ay;
    cbn [bind option_map as_int as_str of_py read_env]; rewrite ?Su, ?St; cbn [bind]; rewrite ?Ed, ?Ep, ?Ei, ?El.
  all: some_row (@nil call); said F.
Qed.

(** Any other name starts no test in either program. *)
Definition unknown (tests : list string) (vars : shell) : Prop := forall t, In t tests -> vars "test_name"%string <> lit t.
Lemma no_branch {B} (branches : list (list string * B)) tests vars :
  Forall (fun b => incl (fst b) tests) branches -> unknown tests vars ->
  find (fun b => existsb (fun n => teqb (lit n) (vars "test_name"%string)) (fst b)) branches = None /\
  filter (fun b => existsb (fun n => teqb (lit n) (vars "test_name"%string)) (fst b)) branches = [].
Proof.
  intros F U. induction F as [|b l I F IH]; [split; reflexivity|]. cbn [find filter].
  destruct (existsb _ (fst b)) eqn:E; [|exact IH]. exfalso. apply existsb_exists in E as (n & In & En).
  apply teqb_spec in En. exact (U n (I n In) (eq_sym En)).
Qed.
Ltac all_names := repeat (constructor; [cbn [fst]; intros n In; repeat (destruct In as [<-|In]; [is_in|]); destruct In|]); constructor.
Lemma unknown_cpp branches tests exports vars : Forall (fun b => incl (fst b) tests) branches -> unknown tests vars ->
  env exports vars "test_name" = Some (vars "test_name"%string) -> cpp_main branches (env exports vars) = Some [].
Proof.
  intros F U G. rewrite (cpp_main_at _ _ _ _ G (proj2 (no_branch branches tests vars F U))). reflexivity.
Qed.
Theorem C99_unknown : forall vars,
  (unknown tsp_unit_tests vars -> whole_numbers vars ["sub_test_number"; "total_sub_tests"; "N_NODES"; "N_SUBTOURS"; "N_ITER"]%string ->
    reals vars ["ALPHA"; "threshold"]%string -> python_tsp vars = Some [] /\ cpp_tsp vars = Some []) /\
  (unknown ksat_unit_tests vars -> whole_numbers vars
      ["sub_test_number"; "total_sub_tests"; "NUM_VARIABLES"; "NUM_CONSTRAINTS"; "K_VARIABLE"; "N_ITER"; "PP_ELEMENTS"]%string ->
    reals vars ["ALPHA"; "threshold"; "IM_VARIANCE"]%string -> python_ksat vars = Some [] /\ cpp_ksat vars = Some []) /\
  (unknown kc_unit_tests vars -> whole_numbers vars
      ["sub_test_number"; "total_sub_tests"; "N_DEPARTMENTS"; "N_TEAMS"; "N_PROJECTS"; "N_ITER"]%string ->
    reals vars ["ALPHA"; "threshold"]%string -> python_kc vars = Some [] /\ cpp_kc vars = Some []).
Proof.
  intros vars. split; [|split].
  - intros U N R. destruct (tsp_args vars N R) as (ns & _ & _ & _ & _ & _ & _ & P & A & _). unfold python_tsp, cpp_tsp. split.
    + rewrite (py_main_at _ _ _ ns _ None P A); [reflexivity|]. apply (no_branch _ tsp_unit_tests); [all_names|exact U].
    + apply (unknown_cpp _ tsp_unit_tests); [all_names|exact U|reflexivity].
  - intros U N R. destruct (ksat_args vars N R) as (ns & _ & _ & _ & _ & _ & _ & _ & _ & P & A & _). unfold python_ksat, cpp_ksat. split.
    + rewrite (py_main_at _ _ _ ns _ None P A); [reflexivity|]. apply (no_branch _ ksat_unit_tests); [all_names|exact U].
    + apply (unknown_cpp _ ksat_unit_tests); [all_names|exact U|reflexivity].
  - intros U N R. destruct (kc_args vars N R) as (ns & _ & _ & _ & _ & _ & _ & _ & _ & P & A & _). unfold python_kc, cpp_kc. split.
    + rewrite (py_main_at _ _ _ ns _ None P A); [reflexivity|]. apply (no_branch _ kc_unit_tests); [all_names|exact U].
    + apply (unknown_cpp _ kc_unit_tests); [all_names|exact U|reflexivity].
Qed.

(** The whole-run tests of the travelling salesperson draw a symmetric graph if and only if the script says
    SYM_FLAG=true. *)
Theorem C99_symmetric : forall vars t, In t ["IterateRelaxedGraph"; "IterateAugmentedGraph"]%string ->
  vars "test_name"%string = lit t ->
  whole_numbers vars ["sub_test_number"; "total_sub_tests"; "N_NODES"; "N_SUBTOURS"; "N_ITER"]%string ->
  reals vars ["ALPHA"; "threshold"]%string ->
  exists a b, python_tsp vars = Some [a] /\ lookup (lit "sym_flag") (c_args a) = Some (VBool b) /\
    (b = true <-> vars "SYM_FLAG"%string = lit "true").
Proof.
  intros vars t It Et N R.
  destruct (tsp_args vars N R) as (ns & n & s & i & Wn & Ws & Wi & P & Au & An & As & Ai & _ & (al & Aa) & (th & At) & (ag & Ag) & Asy).
  assert (Af : exists f, arg ut_tsp_decls ns "fFlag" = Some f).
  { unfold arg. destruct (lookup (lit "fFlag") ns); [eauto|]. eexists. reflexivity. }
  destruct Af as (f & Af). rewrite Et in Au. unfold python_tsp.
  repeat (destruct It as [<-|It]; [|]); [..|destruct It].
  all: match type of Au with _ = Some (PStr ?t) => rewrite (py_main_at _ _ _ ns t _ P Au eq_refl) end.
  all: match goal with |- context [find ?f ?l] => let b := eval vm_compute in (find f l) in change (find f l) with b end;
    unfold py_call; cbn [mapM py_source fst snd].
  all: rewrite Au, An, Ai, Af, Aa, At, Asy; cbn [bind option_map of_py].
  all: eexists; eexists; split; [reflexivity|]; split; [reflexivity|apply teqb_spec].
Qed.

(** ** The scripts as they are *)

(** unit_test_ksat.sh:11-24 *)
Fixpoint setting_of (l : list (string * string)) (n : string) : text :=
  match l with
  | [] => []
  | (m, v) :: l => if String.eqb n m then lit v else setting_of l n
  end.
Definition ksat_script (t : string) : shell := setting_of
  [("test_name", t); ("sub_test_number", "1"); ("total_sub_tests", "1"); ("NUM_VARIABLES", "8"); ("NUM_CONSTRAINTS", "3");
   ("K_VARIABLE", "3"); ("FILT_FLAG", "true"); ("ALPHA", "0.5"); ("threshold", "-0.0001"); ("N_ITER", "200");
   ("TYPE_METRICS", "0"); ("PP_ELEMENTS", "2"); ("IM_VARIANCE", "1")]%string.
(** unit_test_kc_mwm.sh:11-23 *)
Definition kc_script (t : string) : shell := setting_of
  [("test_name", t); ("sub_test_number", "1"); ("total_sub_tests", "1"); ("N_DEPARTMENTS", "5"); ("Nu", "20,30,10,7,8");
   ("N_ITER", "400"); ("pTypes", "1,2,3,4,5"); ("N_TEAMS", "300"); ("N_PROJECTS", "100"); ("FILT_FLAG", "true");
   ("POST_PROCESS_FLAG", "true"); ("ALPHA", "0.9"); ("threshold", "-0.0001")]%string.
(** unit_test_tsp.sh:11-20 *)
Definition tsp_script (t sym filt : string) : shell := setting_of
  [("test_name", t); ("sub_test_number", "1"); ("total_sub_tests", "1"); ("N_NODES", "9"); ("N_SUBTOURS", "50");
   ("SYM_FLAG", sym); ("FILT_FLAG", filt); ("AUGM_FLAG", "true"); ("ALPHA", "0.5"); ("threshold", "-0.0001"); ("N_ITER", "200")]%string.

Lemma nat_whole n w : str_nat n = w -> whole (Z.of_nat n) w.
Proof. intros <-. left. exists n. split; [reflexivity|apply str_nat_ok]. Qed.
Ltac whole_now n := exists (Z.of_nat n); apply nat_whole; vm_compute; reflexivity.
Ltac digits := repeat (constructor; [unfold is_decimal_digit; cbn; lia|]); constructor.
Lemma real_05 : real (Q2Qc (1#2)) (lit "0.5").
Proof. left. exists (lit "0"), (lit "5"). split; [digits|]. split; [digits|]. split; [right; split; [reflexivity|discriminate]|apply Qc_is_canon; vm_compute; reflexivity]. Qed.
Lemma real_09 : real (Q2Qc (9#10)) (lit "0.9").
Proof. left. exists (lit "0"), (lit "9"). split; [digits|]. split; [digits|]. split; [right; split; [reflexivity|discriminate]|apply Qc_is_canon; vm_compute; reflexivity]. Qed.
Lemma real_thr : real (Q2Qc (-1#10000)) (lit "-0.0001").
Proof.
  right. exists (lit "0.0001"). split; [reflexivity|]. exists (lit "0"), (lit "0001"). split; [digits|]. split; [digits|].
  split; [right; split; [reflexivity|discriminate]|apply Qc_is_canon; vm_compute; reflexivity].
Qed.
Lemma real_1 : real 1%Qc (lit "1").
Proof.
  left. exists (lit "1"), []. split; [digits|]. split; [constructor|].
  split; [left; split; [reflexivity|split; [discriminate|reflexivity]]|apply Qc_is_canon; vm_compute; reflexivity].
Qed.

(** With the settings of the scripts every test starts, with the same settings in both programs. *)
Example C99_example :
  (forall t, In t tsp_unit_tests -> same_settings tsp_rows (tsp_script t "true" "true") (python_tsp (tsp_script t "true" "true"))
     (cpp_tsp (tsp_script t "true" "true")) t) /\
  (forall t, In t ksat_unit_tests -> same_settings ksat_rows (ksat_script t) (python_ksat (ksat_script t)) (cpp_ksat (ksat_script t)) t) /\
  (forall t, In t kc_unit_tests -> same_settings kc_rows (kc_script t) (python_kc (kc_script t)) (cpp_kc (kc_script t)) t).
Proof.
  split; [|split]; intros t I.
  - apply C99_tsp; [exact I|reflexivity| | |discriminate].
    + repeat constructor; [whole_now 1|whole_now 1|whole_now 9|whole_now 50|whole_now 200].
    + repeat constructor; [exists (Q2Qc (1#2)); exact real_05|exists (Q2Qc (-1#10000)); exact real_thr].
  - apply C99_ksat; [exact I|reflexivity| | |discriminate].
    + repeat constructor; [whole_now 1|whole_now 1|whole_now 8|whole_now 3|whole_now 3|whole_now 200|whole_now 2].
    + repeat constructor; [exists (Q2Qc (1#2)); exact real_05|exists (Q2Qc (-1#10000)); exact real_thr|exists 1%Qc; exact real_1].
  - apply C99_kc; [exact I|reflexivity| | |discriminate| |].
    + repeat constructor; [whole_now 1|whole_now 1|whole_now 5|whole_now 300|whole_now 100|whole_now 400].
    + repeat constructor; [exists (Q2Qc (9#10)); exact real_09|exists (Q2Qc (-1#10000)); exact real_thr].
    + exists (map Z.of_nat [20; 30; 10; 7; 8]), (map str_nat [20; 30; 10; 7; 8]). split; [discriminate|].
      split; [cbn [map]; repeat (apply Forall2_cons; [apply nat_whole; reflexivity|]); apply Forall2_nil|vm_compute; reflexivity].
    + exists (map Z.of_nat [1; 2; 3; 4; 5]), (map str_nat [1; 2; 3; 4; 5]). split; [discriminate|].
      split; [cbn [map]; repeat (apply Forall2_cons; [apply nat_whole; reflexivity|]); apply Forall2_nil|vm_compute; reflexivity].
Qed.
(** What the two programs do for one test. *)
Example C99_calls : cpp_kc (kc_script "Iterate") = Some [{| c_fun := "ut_iterate_kc_mwm";
    c_args := [(lit "N_PROJECTS", VInt 100); (lit "FILT_FLAG", VBool true); (lit "N_ITER", VInt 400);
      (lit "Nu", VList [20; 30; 10; 7; 8]%Z)] |}] /\
  exists a, python_kc (kc_script "Iterate") = Some [a] /\ lookup (lit "N_u") (c_args a) = Some (VList [20; 30; 10; 7; 8]%Z).
Proof. split; [vm_compute; reflexivity|]. eexists. split; vm_compute; reflexivity. Qed.

(** Full statement: also when FILT_FLAG is empty, both halves filter or neither does.  False: the Python half does not, the
    C++ half does. *)
Theorem C99_flag_refuted : exists a b, python_tsp (tsp_script "DegreeConstraint2EdgeEcUpdate" "true" "") = Some [a] /\
  cpp_tsp (tsp_script "DegreeConstraint2EdgeEcUpdate" "true" "") = Some [b] /\
  lookup (lit "filt_flag") (c_args a) = Some (VBool false) /\ lookup (lit "FILT_FLAG") (c_args b) = Some (VBool true).
Proof. eexists. eexists. split; [vm_compute; reflexivity|]. split; [vm_compute; reflexivity|]. split; vm_compute; reflexivity. Qed.
(** Full statement: the type of the metrics is the number that the script says (0 is unbiased,
    python_ksat/test/impalib_unit_tests.py:27-34).  False for the script as it is: the option is read as a switch, 0 switches it
    on, and True equals 1, which is biased. *)
Theorem C99_metrics_refuted : ksat_script "Iterate" "TYPE_METRICS"%string = lit "0" /\
  exists d a, python_ksat (ksat_script "Iterate") = Some [d; a] /\ c_fun d = "create_incoming_metrics_cost"%string /\
    lookup (lit "type_metrics") (c_args d) = Some (VBool true).
Proof. split; [reflexivity|]. eexists. eexists. split; [vm_compute; reflexivity|]. split; vm_compute; reflexivity. Qed.
(** Full statement: both programs accept the same lists of capacities.  False for other separators and for a comma at the end:
    the C++ half reads them, the Python half stops. *)
Theorem C99_list_refuted : exists u, u = [lit "20;30"; lit "20,30,"] /\ map take_int u = [[20; 30]; [20; 30]]%Z /\
  map (fun w => mapM to_int (split_at ","%char w)) u = [None; None].
Proof. eexists. split; [reflexivity|]. split; vm_compute; reflexivity. Qed.

Print Assumptions C99_tsp.
Print Assumptions C99_ksat.
Print Assumptions C99_kc.
Print Assumptions C99_unknown.
Print Assumptions C99_symmetric.
Print Assumptions C99_flag_refuted.
Print Assumptions C99_metrics_refuted.
Print Assumptions C99_list_refuted.
