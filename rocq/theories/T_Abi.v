(** * Properties of the hand-over between Python and C++: C38, C54. *)
From Coq Require Import String.
From Verif Require Import Num Arr M_Abi P_Abi.
Local Open Scope nat_scope.
Local Open Scope string_scope.

(** ** What each C++ parameter is meant to receive

    Read off the comments of Wrapper.cpp (lines 12-26, 55-82, 109-123) and the names in Impa.py;
    same order as the parameters. *)
Definition tsp_meaning : list (string * string) :=
  [ ("NUM_ITERATIONS", "num_iterations"); ("NUM_NODES", "num_nodes");
    ("NUM_EDGE_VARIABLES", "num_edge_variables"); ("AUGMENTATION_FLAG", "augmentation_flag");
    ("RESET_FLAG", "reset_flag"); ("FILTERING_FLAG", "filtering_flag"); ("ALPHA", "alpha");
    ("pEDGE_CONNECTIONS_PY", "edge_connection_flatten_p");
    ("pCOST_EDGE_VARIABLE_PY", "cost_edge_variable_flatten_p");
    ("pCOST_MATRIX_PY", "cost_matrix_flatten_p");
    ("pEdge_ec_to_degree_constraint_m_py", "edge_ec_to_degree_constraint_m_flatten_p");
    ("pEDGE_DEGREE_CONSTRAINT_COST_PY", "edge_degree_constraint_cost_flatten_p");
    ("pExtrinsic_output_edge_ec", "extrinsic_output_edge_ec_p"); ("THRESHOLD", "threshold");
    ("pNum_augmentations", "num_augmentations_p"); ("pTour_impa", "tour_impa_flatten_p");
    ("pCost_impa", "cost_impa_p");
    ("pNo_improv_sol_count_exc_flag", "no_improvement_sol_count_exceeded_flag_p");
    ("pNo_cons_loops_count_exc_flag", "no_consecutive_loops_count_exceeded_flag_p");
    ("pSelected_edges", "selected_edges_p"); ("pSelected_edges_size", "selected_edges_size_p");
    ("pSol_osc_count_exc_flag", "sol_oscillation_count_exceeded_flag_p");
    ("pSubtour_paths", "subtour_paths_flatten_p");
    ("pSubtour_paths_size", "subtour_paths_size_flatten_p"); ("MAX_COUNT", "max_count");
    ("pNum_added_constraints", "num_added_constraints_p"); ("MAX_AUGM_COUNT", "max_augm_count") ].

Definition kc_meaning : list (string * string) :=
  [ ("NUM_ITERATIONS", "num_iterations"); ("NUM_DEPARTMENTS", "num_departments");
    ("NUM_TEAMS", "num_teams"); ("NUM_PROJECTS", "num_projects");
    ("pTransition_model_py", "transitional_model_p"); ("pMAX_STATE_PY", "max_state_p");
    ("pREWARD_TEAM_PY", "reward_team_p"); ("pREWARD_PROJECT_PY", "reward_project_flatten_p");
    ("pTEAMS_WEIGHTS_PER_DEPARTMENT_PY", "teams_weights_per_department_flatten_p");
    ("p_NON_ZERO_WEIGHT_INDICES_PY", "non_zero_weight_indices_p");
    ("pNON_ZERO_WEIGHT_INDICES_SIZES_PY", "non_zero_weight_indices_sizes_p");
    ("MAX_SIZE_NON_ZERO_WEIGHTS", "max_size_nonzero_weights");
    ("pExtrinsic_output_team", "extrinsic_output_team_p");
    ("pIntrinsic_out_mwm", "intrisic_out_mwm_p"); ("FILTERING_FLAG", "filtering_flag");
    ("ALPHA", "alpha") ].

Definition ksat_meaning : list (string * string) :=
  [ ("NUM_ITERATIONS", "num_iterations"); ("NUM_VARIABLES", "num_variables");
    ("NUM_CONSTRAINTS", "num_constraints"); ("NUM_USED_VARIABLES", "num_used_variables");
    ("ALPHA", "alpha"); ("FILTERING_FLAG", "filtering_flag");
    ("pUSED_VARIABLES_PY", "used_variables_flatten_p");
    ("pVARIABLES_CONNECTIONS_PY", "variables_connections_flatten_p");
    ("pVARIABLES_CONNECTIONS_SIZES", "variables_connections_sizes_flatten_p");
    ("pCONSTRAINTS_CONNECTIONS", "constraints_connections_flatten_p");
    ("pCONSTRAINTS_CONNECTIONS_TYPE", "constraints_connections_type_flatten_p");
    ("pINCOMING_METRICS_COST", "incoming_metrics_cost_flatten_p");
    ("pVariable_ec_to_ksat_constraint_m_py", "variable_ec_to_ksat_constraint_m_flatten_p");
    ("pExtrinsic_output_variable_ec", "extrinsic_output_variable_ec_p");
    ("K_VARIABLE", "k_variable") ].

(** The quantities fit the types of the C++ parameters they are meant for: integers of 32 bits,
    flags, doubles, pointers to the right element type. *)
Definition quantities_fit (f : foreign) (meaning : list (string * string)) (q : string -> value) : Prop :=
  forall p t n, In (p, t) (f_params f) -> In (p, n) meaning ->
  match t, q n with
  | TInt, VInt z => (- 2 ^ 31 <= z < 2 ^ 31)%Z
  | TBool, VBool _ | TDouble, VReal _ => True
  | TPtr e, VPtr e' _ => e = e'
  | _, _ => False
  end.

(** On entry every parameter has the value of the quantity it is meant for, whatever the values
    and whatever the bits of the registers that do not belong to a value. *)
Definition delivers (conv : convention) (f : foreign) (meaning : list (string * string)) : Prop :=
  map fst meaning = map fst (f_params f) /\
  forall q hi, quantities_fit f meaning q ->
  foreign_call conv f q hi = Some (map (fun pn => q (snd pn)) meaning).

Lemma fit_params : forall f meaning q, map fst meaning = map fst (f_params f) ->
  quantities_fit f meaning q ->
  Forall (fun p => fits (fst p) (q (snd p))) (combine (map snd (f_params f)) (map snd meaning)).
Proof.
  intros f meaning q E H. unfold quantities_fit in H.
  assert (G : forall p t n, In ((p, t), (p, n)) (combine (f_params f) meaning) -> fits t (q n)).
  { intros p t n Hi. specialize (H p t n (in_combine_l _ _ _ _ Hi) (in_combine_r _ _ _ _ Hi)).
    unfold fits. destruct t, (q n); auto. }
  clear H. revert E G. generalize (f_params f) meaning. clear.
  intros l. induction l as [| [p t] l IH]; intros [| [p' n] m] E G; try discriminate; [constructor |].
  cbn [map combine fst snd] in *. injection E as Ep E. subst p'. constructor.
  - cbn [fst snd]. apply (G p t n). left; reflexivity.
  - apply IH; [assumption |]. intros. apply (G p0 t0 n0). right; assumption.
Qed.

(** The Python arguments of WrapperTsp in call order. *)
Definition tsp_args : list string :=
  [ "num_iterations"; "num_nodes"; "num_edge_variables"; "augmentation_flag"; "reset_flag";
    "alpha"; "filtering_flag"; "edge_connection_flatten_p"; "cost_edge_variable_flatten_p";
    "cost_matrix_flatten_p"; "edge_ec_to_degree_constraint_m_flatten_p";
    "edge_degree_constraint_cost_flatten_p"; "extrinsic_output_edge_ec_p"; "threshold";
    "num_augmentations_p"; "tour_impa_flatten_p"; "cost_impa_p";
    "no_improvement_sol_count_exceeded_flag_p"; "no_consecutive_loops_count_exceeded_flag_p";
    "selected_edges_p"; "selected_edges_size_p"; "sol_oscillation_count_exceeded_flag_p";
    "subtour_paths_flatten_p"; "subtour_paths_size_flatten_p"; "max_count";
    "num_added_constraints_p"; "max_augm_count" ].

Ltac fit := apply fit_params; [reflexivity | assumption].

Lemma tsp_any : forall ni nf, 2 <= nf -> delivers (by_class ni nf) tsp_foreign tsp_meaning.
Proof.
  intros ni nf L. split; [reflexivity |]. intros q hi H. rewrite <- (map_map snd q).
  apply (conveys_delivers (by_class ni nf) tsp_foreign (map snd tsp_meaning) tsp_args);
    [reflexivity | reflexivity | reflexivity | | vm_compute; reflexivity | vm_compute; reflexivity | fit].
  apply by_class_conveys; vm_compute; [reflexivity | reflexivity | exact L].
Qed.

Lemma kc_any : forall ni nf, 1 <= nf -> delivers (by_class ni nf) kc_foreign kc_meaning.
Proof.
  intros ni nf L. split; [reflexivity |]. intros q hi H. rewrite <- (map_map snd q).
  apply (conveys_delivers (by_class ni nf) kc_foreign (map snd kc_meaning) (map snd kc_meaning));
    [reflexivity | reflexivity | reflexivity | | vm_compute; reflexivity | vm_compute; reflexivity | fit].
  apply by_class_conveys; vm_compute; [reflexivity | reflexivity | exact L].
Qed.

Lemma ksat_any : forall ni nf, 1 <= nf -> delivers (by_class ni nf) ksat_foreign ksat_meaning.
Proof.
  intros ni nf L. split; [reflexivity |]. intros q hi H. rewrite <- (map_map snd q).
  apply (conveys_delivers (by_class ni nf) ksat_foreign (map snd ksat_meaning) (map snd ksat_meaning));
    [reflexivity | reflexivity | reflexivity | | vm_compute; reflexivity | vm_compute; reflexivity | fit].
  apply by_class_conveys; vm_compute; [reflexivity | reflexivity | exact L].
Qed.

(** ** C38.  Arguments reach the parameters they are meant for, on Linux x86-64 ... *)
Theorem C38_tsp : delivers sysv tsp_foreign tsp_meaning.
Proof. apply tsp_any. lia. Qed.

Theorem C38_kc : delivers sysv kc_foreign kc_meaning.
Proof. apply kc_any. lia. Qed.

Theorem C38_ksat : delivers sysv ksat_foreign ksat_meaning.
Proof. apply ksat_any. lia. Qed.

(** ... and with any numbers of registers, as long as two floating-point arguments travel in
    registers of their own (AArch64 in particular). *)
Theorem C38_any_registers : forall ni nf, 2 <= nf ->
  delivers (by_class ni nf) tsp_foreign tsp_meaning
  /\ delivers (by_class ni nf) kc_foreign kc_meaning
  /\ delivers (by_class ni nf) ksat_foreign ksat_meaning.
Proof.
  intros ni nf L. split; [apply tsp_any | split; [apply kc_any | apply ksat_any]]; lia.
Qed.

(** The register classes are essential for the TSP: cFunctionAPI.py and Impa.py have ALPHA before
    FILTERING_FLAG, Wrapper.cpp has it after.  Under a convention that goes by position no TSP
    call delivers its arguments; the other two entry points do not depend on the convention. *)
Theorem C38_tsp_by_position_refuted : forall q hi, quantities_fit tsp_foreign tsp_meaning q ->
  foreign_call by_position tsp_foreign q hi = None.
Proof.
  intros q hi H. unfold foreign_call.
  rewrite (eval_quantities tsp_foreign q (f_call tsp_foreign) tsp_args eq_refl). cbn [bind].
  match goal with |- bind ?Z _ = _ => destruct Z as [cells |] eqn:Ec; [| reflexivity] end.
  cbn [bind by_position].
  destruct (zipM decode (map snd (f_params tsp_foreign)) (map snd cells)) as [r |] eqn:Ed; [| reflexivity].
  exfalso.
  destruct (zipM_nth _ _ _ _ 5 TBool Ed eq_refl) as (c & v & Hc & Hd).
  destruct (zip_encode_nth _ _ _ _ _ 5 TDouble "alpha" c Ec eq_refl eq_refl Hc) as (h & Hh).
  destruct (q "alpha"); cbn [encode] in Hh; try discriminate. injection Hh as <-. discriminate.
Qed.

Theorem C38_others_by_position :
  delivers by_position kc_foreign kc_meaning /\ delivers by_position ksat_foreign ksat_meaning.
Proof.
  split; (split; [reflexivity |]); intros q hi H; rewrite <- (map_map snd q).
  - apply (conveys_delivers by_position kc_foreign (map snd kc_meaning) (map snd kc_meaning));
      [reflexivity | reflexivity | reflexivity | apply by_position_conveys
      | vm_compute; reflexivity | vm_compute; reflexivity | fit].
  - apply (conveys_delivers by_position ksat_foreign (map snd ksat_meaning) (map snd ksat_meaning));
      [reflexivity | reflexivity | reflexivity | apply by_position_conveys
      | vm_compute; reflexivity | vm_compute; reflexivity | fit].
Qed.

(** A call: 3 nodes, 200 iterations, a threshold, filtering on with alpha 1/2, limit -1. *)
Definition sample (n : string) : value :=
  match assoc n [("num_iterations", VInt 200); ("num_nodes", VInt 3); ("num_edge_variables", VInt 6);
                 ("augmentation_flag", VBool true); ("reset_flag", VBool false);
                 ("alpha", VReal (Fin (Q2Qc (1 # 2)))); ("filtering_flag", VBool true);
                 ("threshold", VReal (Fin (Q2Qc (- (1) # 10000)))); ("max_count", VInt 50);
                 ("max_augm_count", VInt (-1)); ("edge_connection_flatten_p", VPtr EInt 4096);
                 ("num_augmentations_p", VPtr EInt 4104); ("tour_impa_flatten_p", VPtr EInt 4112);
                 ("selected_edges_p", VPtr EInt 4120); ("selected_edges_size_p", VPtr EInt 4128);
                 ("subtour_paths_flatten_p", VPtr EInt 4136);
                 ("subtour_paths_size_flatten_p", VPtr EInt 4144);
                 ("num_added_constraints_p", VPtr EInt 4152);
                 ("no_improvement_sol_count_exceeded_flag_p", VPtr EBool 4160);
                 ("no_consecutive_loops_count_exceeded_flag_p", VPtr EBool 4161);
                 ("sol_oscillation_count_exceeded_flag_p", VPtr EBool 4162)] with
  | Some v => v
  | None => VPtr EDouble 8192
  end.

Definition fitb (t : ctype) (v : value) : bool :=
  match t, v with
  | TInt, VInt z => ((- 2 ^ 31 <=? z) && (z <? 2 ^ 31))%Z
  | TBool, VBool _ | TDouble, VReal _ => true
  | TPtr e, VPtr e' _ => elem_eqb e e'
  | _, _ => false
  end.

Lemma sample_fits : quantities_fit tsp_foreign tsp_meaning sample.
Proof.
  intros p t n Hp Hm.
  assert (F : forallb (fun pt => forallb (fun pn => negb (String.eqb (fst pt) (fst pn))
                || fitb (snd pt) (sample (snd pn))) tsp_meaning) (f_params tsp_foreign) = true)
    by (vm_compute; reflexivity).
  rewrite forallb_forall in F. specialize (F _ Hp). rewrite forallb_forall in F. specialize (F _ Hm).
  cbn [fst snd] in F. rewrite String.eqb_refl in F. cbn [negb orb] in F.
  destruct t, (sample n); cbn [fitb] in F; try discriminate; try exact I.
  - apply andb_true_iff in F. destruct F as [F1 F2]. apply Z.leb_le in F1. apply Z.ltb_lt in F2.
    split; assumption.
  - destruct e, e0; try discriminate; reflexivity.
Qed.

(** The hypotheses hold for it; the values arrive with garbage in the unused bits. *)
Example C38_sample :
  quantities_fit tsp_foreign tsp_meaning sample
  /\ option_map (fun l => firstn 7 l) (foreign_call sysv tsp_foreign sample (fun i => Z.of_nat (7 * i + 3)))
     = Some [VInt 200; VInt 3; VInt 6; VBool true; VBool false; VBool true; VReal (Fin (Q2Qc (1 # 2)))]
  /\ foreign_call by_position tsp_foreign sample (fun _ => 0%Z) = None.
Proof.
  split; [apply sample_fits |]. split; [| apply C38_tsp_by_position_refuted, sample_fits].
  destruct C38_tsp as [_ D]. rewrite D by apply sample_fits. reflexivity.
Qed.

(** ** C54.  Counts come back through 64-bit cells

    The three counters of a TSP call (rounds, constraints, size of the selection) are stored as
    32-bit integers into cells that Python reads as 64-bit integers.  On a little-endian machine a
    count below 2^31 is read back unchanged, in every call of any sequence of calls in which the
    attribute keeps the result of the previous call. *)
Theorem C54_counts : forall counts first,
  (0 <= first < 2 ^ 31)%Z -> Forall (fun v => (0 <= v < 2 ^ 31)%Z) counts ->
  forall before v, firstn (List.length before) counts = before ->
  nth_error counts (List.length before) = Some v ->
  let attribute := fold_left (scalar_result Little) before first in
  scalar_result Little attribute v = v.
Proof.
  intros counts first Hf HF before v Hb Hv attribute.
  assert (G : forall l a, (0 <= a < 2 ^ 31)%Z -> Forall (fun v => (0 <= v < 2 ^ 31)%Z) l ->
    (0 <= fold_left (scalar_result Little) l a < 2 ^ 31)%Z).
  { assert (S : forall a v, (0 <= a < 2 ^ 31)%Z -> (0 <= v < 2 ^ 31)%Z -> scalar_result Little a v = v).
    { intros a w Ha Hw. rewrite scalar_little, (Z.mod_small a), (Z.mod_small w), (Z.div_small a) by lia.
      unfold signed. destruct (Z.ltb_spec (w + 2 ^ 32 * 0) (2 ^ (64 - 1))); lia. }
    induction l as [| x l IH]; intros a Ha Hl; cbn [fold_left]; [exact Ha |].
    inversion Hl; subst. apply IH; [| assumption]. rewrite S by assumption. assumption. }
  assert (Ha : (0 <= attribute < 2 ^ 31)%Z).
  { apply G; [exact Hf |]. rewrite <- Hb. rewrite Forall_forall in *. intros x Hx. apply HF.
    rewrite <- (firstn_skipn (List.length before) counts). apply in_or_app. left; exact Hx. }
  assert (Hw : (0 <= v < 2 ^ 31)%Z).
  { rewrite Forall_forall in HF. apply HF. eapply nth_error_In; eassumption. }
  rewrite scalar_little, (Z.mod_small attribute), (Z.mod_small v), (Z.div_small attribute) by lia.
  unfold signed. destruct (Z.ltb_spec (v + 2 ^ 32 * 0) (2 ^ (64 - 1))); lia.
Qed.

(** A negative value would not survive, and on a big-endian machine only zero does. *)
Theorem C54_negative_refuted : forall first v,
  (0 <= first < 2 ^ 31)%Z -> (- 2 ^ 31 <= v < 0)%Z -> scalar_result Little first v = (v + 2 ^ 32)%Z.
Proof.
  intros first v Hf Hv. rewrite scalar_little, (Z.mod_small first), (Z.div_small first) by lia.
  assert (v mod 2 ^ 32 = v + 2 ^ 32)%Z as ->.
  { rewrite <- (Z_mod_plus_full v 1 (2 ^ 32)), Z.mul_1_l. apply Z.mod_small. lia. }
  unfold signed. destruct (Z.ltb_spec (v + 2 ^ 32 + 2 ^ 32 * 0) (2 ^ (64 - 1))); lia.
Qed.

Theorem C54_big_endian_refuted : forall v,
  (0 <= v < 2 ^ 31)%Z -> scalar_result Big 0 v = (2 ^ 32 * v)%Z.
Proof.
  intros v Hv. rewrite scalar_big, (Z.mod_small 0), (Z.mod_small v) by lia.
  unfold signed. destruct (Z.ltb_spec (0 + 2 ^ 32 * v) (2 ^ (64 - 1))); lia.
Qed.

Example C54_sample :
  map (scalar_result Little 12) [0; 7; 123456789]%Z = [0; 7; 123456789]%Z
  /\ scalar_result Little 12 (-1) = 4294967295%Z /\ scalar_result Big 0 3 = 12884901888%Z.
Proof. vm_compute. auto. Qed.

Print Assumptions C38_tsp.
Print Assumptions C38_kc.
Print Assumptions C38_ksat.
Print Assumptions C38_any_registers.
Print Assumptions C38_tsp_by_position_refuted.
Print Assumptions C38_others_by_position.
Print Assumptions C54_counts.
Print Assumptions C54_negative_refuted.
Print Assumptions C54_big_endian_refuted.
