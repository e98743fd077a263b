(** * C89: the unit tests of single steps pass whatever is drawn. *)
From Coq Require Import Permutation String.
From Verif Require Import NumFacts Arr ArrFacts Spec SpecGraph MinSum M_InOut M_PyRef M_PyRef_Kc M_PyRef_Ksat M_Kc_Trellis
  M_Tsp_Run M_Tsp_Py M_Ksat_Py M_Instances M_Test_Check M_Unit_Tests P_Tsp_Constraints P_Kc_Trellis P_Equality P_InOut
  P_PyRef P_PyRef_Kc P_PyRef_Ksat P_Runs P_Tsp_Fin P_Tsp_Py P_Ksat_Py P_Ksat_Gen P_Unit_Tests T_PyRef T_Instances T_Test_Check.
From Verif Require Import Num.
Local Open Scope nat_scope.

(** The two programs store the same [len] numbers, and the comparison of them succeeds for all tolerances. *)
Definition test_passes (len : nat) (r : option files) : Prop :=
  exists y, r = Some (y, y) /\ length y = len /\
    forall rtol atol, (0 <= rtol)%Qc -> (0 <= atol)%Qc -> verdict (Fin rtol) (Fin atol) (y, y) = Some true.

Lemma passes_intro len y r : r = Some (y, y) -> length y = len -> len <> 0 -> test_passes len r.
Proof.
  intros E L N. exists y. repeat split; auto. intros rtol atol Hr Ha. unfold verdict. cbn [fst snd]. apply same_passes; auto.
  intros ->. cbn in L. congruence.
Qed.
Lemma edges_nonzero n : 2 <= n -> py_num_edges n <> 0.
Proof. intros H. unfold py_num_edges. nia. Qed.

(** ** Travelling salesperson.  [U] is the drawn matrix (numbers between 1 and 1000), [n] the number of nodes. *)
Section Tsp.
Variables (n : nat) (symmetric : bool) (U : list (list Qc)).
Hypotheses (Hn : 2 <= n) (SU : shape n n U) (NzU : forall i j, i < n -> j < n -> qat U i j <> 0%Qc).
Local Notation e := (py_num_edges n).

Theorem C89_tsp_degree : forall M, 3 <= n -> shape e n M -> test_passes (e * n) (ut_degree n symmetric (inj U) (inj M)).
Proof.
  intros M H3 SM. destruct (tsp_graph_ok n symmetric U SU NzU) as (C & c & D & _ & G & Co & L & Lc & SD & _).
  unfold ut_degree. rewrite G. cbn [bind].
  destruct (degree_same e n M (all_pairs n)) as (R & A & B & SR); auto.
  { exact (complete_no_self n _ Co). }
  { intros u Hu. split; [apply (from_two n)|apply (into_two n)]; auto. }
  rewrite A. cbn [bind]. rewrite (read_rows_ok n0 e n) by now apply shape_inj. cbn [bind].
  rewrite read_edges_ok by exact L. cbn [bind]. rewrite B.
  eapply passes_intro; [reflexivity|now apply shape_concat_length|]. pose proof (edges_nonzero n Hn). nia.
Qed.

(** a cut is a sample without repetition of the edges, of at least two (ut_subtour_elimination_constraint.py:23) *)
Definition sample (d : list nat) : Prop := 2 <= length d /\ NoDup d /\ Forall (fun i => i < e) d.

Theorem C89_tsp_subtour : forall cuts M, cuts <> [] -> Forall sample cuts -> shape (length cuts) e M ->
  test_passes (length cuts * e) (ut_subtour n cuts (inj M)).
Proof.
  intros cuts M Ne F SM. unfold ut_subtour.
  destruct (subtour_same e (length cuts) M cuts) as (R & A & B & SR); auto.
  rewrite A. cbn [bind]. rewrite (read_rows_ok n0 (length cuts) e) by now apply shape_inj. cbn [bind].
  rewrite read_cuts_ok. cbn [bind]. rewrite B.
  eapply passes_intro; [reflexivity|now apply shape_concat_length|].
  pose proof (edges_nonzero n Hn). destruct cuts; [congruence|cbn [length]; nia].
Qed.

Theorem C89_tsp_relaxed : forall M, shape e n M ->
  test_passes (e * n) (ut_edge_to_degree_relaxed n symmetric (inj U) (inj M)).
Proof.
  intros M SM. destruct (tsp_graph_ok n symmetric U SU NzU) as (C & c & D & _ & G & Co & L & Lc & SD & OD).
  unfold ut_edge_to_degree_relaxed. rewrite G. cbn [bind].
  destruct (keep_ends n (all_pairs n) M) as (M' & K & S' & O'); [rewrite L; auto|exact (complete_edges_in n _ Co)|].
  rewrite L in S'. rewrite K. cbn [bind].
  destruct (relaxed_same e n M' D (all_pairs n) (np_zeros e n)) as (R & A & B & SR); auto using np_zeros_shape.
  { exact (complete_edges_in n _ Co). } { exact (complete_no_self n _ Co). }
  rewrite A. cbn [bind]. rewrite read_edges_ok by exact L. cbn [bind].
  rewrite !(read_rows_ok n0 e n) by now apply shape_inj. cbn [bind]. rewrite B.
  eapply passes_intro; [reflexivity|now apply shape_concat_length|]. pose proof (edges_nonzero n Hn). nia.
Qed.

Theorem C89_tsp_extrinsic_relaxed : forall M, shape e n M ->
  test_passes e (ut_extrinsic_relaxed n symmetric (inj U) (inj M)).
Proof.
  intros M SM. destruct (tsp_graph_ok n symmetric U SU NzU) as (C & c & D & _ & G & Co & L & Lc & SD & OD).
  unfold ut_extrinsic_relaxed. rewrite G. cbn [bind].
  destruct (keep_ends n (all_pairs n) M) as (M' & K & S' & O'); [rewrite L; auto|exact (complete_edges_in n _ Co)|].
  rewrite L in S'. rewrite K. cbn [bind]. rewrite (read_rows_ok n0 e n) by now apply shape_inj. cbn [bind].
  rewrite (extrinsic_relaxed_same e n M' (repeat n0 e)) by (auto; apply repeat_length).
  eapply passes_intro; [reflexivity| |now apply edges_nonzero].
  unfold py_extrinsic_relaxed, row_sums, inj. rewrite !map_length. apply S'.
Qed.

Section Cuts.
Variables (cuts : list (list nat)) (M Sub : list (list Qc)).
Hypotheses (Ne : cuts <> []) (Cuts : Forall sample cuts) (SM : shape e n M) (SS : shape (length cuts) e Sub).

Theorem C89_tsp_edge_to_subtour :
  test_passes (length cuts * e) (ut_edge_to_subtour n symmetric (inj U) cuts (inj M) (inj Sub)).
Proof.
  destruct (tsp_graph_ok n symmetric U SU NzU) as (C & c & D & _ & G & Co & L & Lc & SD & OD).
  unfold ut_edge_to_subtour. rewrite G. cbn [bind].
  destruct (keep_ends n (all_pairs n) M) as (M' & K & S' & O'); [rewrite L; auto|exact (complete_edges_in n _ Co)|].
  rewrite L in S'. rewrite K. cbn [bind].
  destruct (keep_only_ok (length cuts) e e cuts Sub) as (Sub' & K2 & S2 & _); auto.
  rewrite K2. cbn [bind].
  assert (Ns : length cuts <> 0) by (destruct cuts; [congruence|discriminate]).
  destruct (edge_to_subtour_same e n (length cuts) M' Sub' c (all_pairs n) cuts) as (R & A & B & SR); auto.
  { exact (complete_edges_in n _ Co). } { exact (complete_no_self n _ Co). }
  { eapply Forall_impl; [|exact Cuts]. intros d (_ & _ & F); exact F. }
  rewrite A. cbn [bind]. rewrite read_edges_ok by exact L. cbn [bind].
  rewrite (read_rows_ok n0 e n) by now apply shape_inj. cbn [bind]. rewrite read_cuts_ok. cbn [bind].
  rewrite slice_all by now rewrite map_length. cbn [bind].
  rewrite (read_rows_ok n0 (length cuts) e) by now apply shape_inj. cbn [bind]. rewrite B.
  eapply passes_intro; [reflexivity|now apply shape_concat_length|]. pose proof (edges_nonzero n Hn). nia.
Qed.

Theorem C89_tsp_augmented :
  test_passes (e * n) (ut_edge_to_degree_augmented n symmetric (inj U) cuts (inj M) (inj Sub)).
Proof.
  destruct (tsp_graph_ok n symmetric U SU NzU) as (C & c & D & _ & G & Co & L & Lc & SD & OD).
  unfold ut_edge_to_degree_augmented. rewrite G. cbn [bind].
  destruct (keep_ends n (all_pairs n) M) as (M' & K & S' & O'); [rewrite L; auto|exact (complete_edges_in n _ Co)|].
  rewrite L in S'. rewrite K. cbn [bind].
  destruct (keep_only_ok (length cuts) e e cuts Sub) as (Sub' & K2 & S2 & _); auto.
  rewrite K2. cbn [bind].
  assert (Ns : length cuts <> 0) by (destruct cuts; [congruence|discriminate]).
  destruct (augmented_same e n (length cuts) M' Sub' D (all_pairs n)) as (R & A & B & SR); auto.
  { exact (complete_edges_in n _ Co). } { exact (complete_no_self n _ Co). }
  rewrite A. cbn [bind]. rewrite read_edges_ok by exact L. cbn [bind].
  rewrite !(read_rows_ok n0 e n) by now apply shape_inj. cbn [bind].
  rewrite (read_rows_ok n0 (length cuts) e) by now apply shape_inj. cbn [bind]. rewrite B.
  eapply passes_intro; [reflexivity|now apply shape_concat_length|]. pose proof (edges_nonzero n Hn). nia.
Qed.

Theorem C89_tsp_extrinsic_augmented :
  test_passes e (ut_extrinsic_augmented n symmetric (inj U) cuts (inj M) (inj Sub)).
Proof.
  destruct (tsp_graph_ok n symmetric U SU NzU) as (C & c & D & _ & G & Co & L & Lc & SD & OD).
  unfold ut_extrinsic_augmented. rewrite G. cbn [bind].
  destruct (keep_ends n (all_pairs n) M) as (M' & K & S' & O'); [rewrite L; auto|exact (complete_edges_in n _ Co)|].
  rewrite L in S'. rewrite K. cbn [bind].
  destruct (keep_only_ok (length cuts) e e cuts Sub) as (Sub' & K2 & S2 & _); auto.
  rewrite K2. cbn [bind].
  assert (Ns : length cuts <> 0) by (destruct cuts; [congruence|discriminate]).
  destruct (extrinsic_augmented_same e n (length cuts) M' Sub' (repeat n0 e)) as (R & A & B & SR); auto.
  { apply repeat_length. }
  rewrite A. cbn [bind]. rewrite (read_rows_ok n0 e n) by now apply shape_inj. cbn [bind].
  rewrite (read_rows_ok n0 (length cuts) e) by now apply shape_inj. cbn [bind]. rewrite B.
  eapply passes_intro; [reflexivity|exact SR|now apply edges_nonzero].
Qed.
End Cuts.
End Tsp.

(** ** K-SAT: a formula is drawn (as in C85), at least one clause is left *)
Section Ksat.
Variables (nv k : nat) (sol : list bool) (ord : list nat -> list nat) (draws : list draw) (f : formula).
Hypotheses (Hk : 1 <= k) (Ls : length sol = nv) (Vd : Forall (valid_draw nv k) draws)
  (Po : forall l, Permutation l (ord l)) (Ef : create_formula nv k sol ord draws = Some f).

Lemma formula_facts : consistent nv f /\ clauses_ok nv k sol f.
Proof.
  destruct (create_formula_ok nv k sol ord draws Hk Ls Vd Po) as (f' & E & Co & Cl & _).
  assert (f' = f) as -> by congruence. auto.
Qed.
Lemma conx_shape : shape (y_nc f) k (y_conx f) /\ shape (y_nc f) k (y_types f).
Proof.
  destruct formula_facts as (Co & Cl). split; split.
  - apply Co.
  - eapply Forall_impl; [|exact (q_size _ _ _ _ Cl)]. intros r (H & _); exact H.
  - apply Co.
  - apply Forall_forall. intros ts I. apply In_nth_error in I as (c & G).
    assert (Hc : c < length (y_conx f)).
    { rewrite (c_conx _ _ Co), <- (c_types _ _ Co). apply nth_error_Some. congruence. }
    destruct (nth_error (y_conx f) c) as [r|] eqn:Gr; [|apply nth_error_None in Gr; lia].
    destruct (c_rows _ _ Co c r Gr) as (ts' & G' & L'). assert (ts' = ts) as -> by congruence.
    rewrite L'. pose proof (q_size _ _ _ _ Cl) as Q. rewrite Forall_forall in Q. apply Q. eapply nth_error_In; eauto.
Qed.
Lemma rows_wf c conx tys : get (y_conx f) c = Some conx -> get (y_types f) c = Some tys -> clause_wf nv k conx tys.
Proof.
  destruct formula_facts as (Co & Cl). destruct conx_shape as (S1 & S2). unfold get. intros G1 G2.
  assert (L1 : length conx = k) by (exact (shape_row _ _ _ _ _ S1 G1)).
  assert (L2 : length tys = k) by (exact (shape_row _ _ _ _ _ S2 G2)).
  assert (P : forall i v t, nth_error conx i = Some v -> nth_error tys i = Some t -> in_clause f c v t).
  { intros i v t Gv Gt. exists i. unfold get2, get. rewrite G1, G2. auto. }
  split; [exact L1|]. split; [exact L2|]. split.
  { pose proof (q_size _ _ _ _ Cl) as Q. rewrite Forall_forall in Q. apply Q. eapply nth_error_In; eauto. }
  split; apply Forall_forall.
  - intros v I. apply In_nth_error in I as (i & Gv).
    destruct (nth_error tys i) as [t|] eqn:Gt.
    2:{ apply nth_error_None in Gt. assert (i < length conx) by (apply nth_error_Some; congruence). lia. }
    pose proof (c_range _ _ Co) as R. rewrite Forall_forall in R. apply R. exact (c_used _ _ Co c v t (P i v t Gv Gt)).
  - intros t I. apply In_nth_error in I as (i & Gt).
    destruct (nth_error conx i) as [v|] eqn:Gv.
    2:{ apply nth_error_None in Gv. assert (i < length tys) by (apply nth_error_Some; congruence). lia. }
    exact (c_sign _ _ Co c v t (P i v t Gv Gt)).
Qed.

Lemma k_le : y_nc f <> 0 -> k <= nv.
Proof.
  intros N. destruct (create_formula_ok nv k sol ord draws Hk Ls Vd Po) as (f' & E & _ & _ & _ & Le).
  assert (f' = f) as -> by congruence. destruct draws as [|d l]; [cbn in Le; lia|].
  inversion Vd as [|? ? (V1 & V2 & V3) _]; subst. destruct (Nat.eq_dec k 1) as [->|N1]; [lia|].
  destruct (nth_error (d_rest d) (k - 2)) as [(i & s)|] eqn:G; [|apply nth_error_None in G; lia].
  apply V3 in G. lia.
Qed.

Theorem C89_ksat_clause : forall M, y_nc f <> 0 -> shape (y_nc f) nv M ->
  test_passes (y_nc f * nv) (ut_ksat_clause nv k sol ord draws (inj M)).
Proof.
  intros M Hc SM. destruct formula_facts as (Co & Cl). destruct conx_shape as (S1 & S2). pose proof (k_le Hc) as Hkn.
  unfold ut_ksat_clause. rewrite Ef. cbn [bind].
  destruct (keep_only_ok (y_nc f) nv k (y_conx f) M) as (M' & K & S' & _); auto. { apply Co. }
  rewrite K. cbn [bind].
  destruct (ksat_same (y_nc f) nv k M' (np_zeros (y_nc f) nv) (y_conx f) (y_types f)) as (R & A & B & SR);
    auto using np_zeros_shape. { apply Co. } { apply Co. } { intros; eapply rows_wf; eauto. }
  rewrite A. cbn [bind]. rewrite (read_rows_ok 0 (y_nc f) k) by auto. cbn [bind].
  rewrite (read_rows_ok 0%Z (y_nc f) k) by auto. cbn [bind].
  rewrite (read_rows_ok n0 (y_nc f) nv) by now apply shape_inj. cbn [bind]. rewrite B.
  eapply passes_intro; [reflexivity|now apply shape_concat_length|]. nia.
Qed.

Lemma in_view v l c : nth_error (y_vconx f) v = Some l -> In c l -> exists t, in_clause f c v t.
Proof.
  intros G I. destruct formula_facts as (Co & _). apply In_nth_error in I as (j & Gj).
  destruct (c_vrows _ _ Co v l G) as (ts & Gt & Lt).
  destruct (nth_error ts j) as [t|] eqn:Gtj.
  2:{ apply nth_error_None in Gtj. assert (j < length l) by (apply nth_error_Some; congruence). lia. }
  exists t. apply (c_same _ _ Co). exists j. unfold get2, get. rewrite G, Gt. auto.
Qed.
Lemma in_clause_row c v t : in_clause f c v t -> c < y_nc f /\ exists r, nth_error (y_conx f) c = Some r /\ In v r.
Proof.
  destruct formula_facts as (Co & _). intros (j & G & _). unfold get2, get in G.
  destruct (nth_error (y_conx f) c) as [r|] eqn:Gr; [|discriminate]. cbn [bind] in G. split.
  - rewrite <- (c_conx _ _ Co). apply nth_error_Some. congruence.
  - exists r. split; auto. eapply nth_error_In; eauto.
Qed.

Theorem C89_ksat_variable : forall metrics M, y_nc f <> 0 -> length metrics = nv -> shape (y_nc f) nv M ->
  test_passes (y_nc f * nv) (ut_ksat_variable nv k sol ord draws (map Fin metrics) (inj M)).
Proof.
  intros metrics M Hc Lm SM. destruct formula_facts as (Co & Cl). pose proof (k_le Hc) as Hkn.
  unfold ut_ksat_variable. rewrite Ef. cbn [bind].
  destruct (keep_only_ok (y_nc f) nv nv (y_conx f) M) as (M' & K & S' & Z); auto. { apply Co. }
  rewrite K. cbn [bind].
  destruct (variable_same (y_nc f) nv M' metrics (y_used f) (y_vconx f) (np_zeros (y_nc f) nv)) as (R & A & B & SR);
    auto using np_zeros_shape. { apply Co. } { apply Co. }
  { intros v l G. apply Forall_forall. intros c I. destruct (in_view v l c G I) as (t & H). eapply in_clause_row; eauto. }
  { intros v l G. assert (Hv : v < nv) by (rewrite <- (c_vconx _ _ Co); apply nth_error_Some; unfold get in G; congruence).
    pose proof (q_once _ _ _ _ Cl v Hv) as Q. now rewrite (nth_error_nth _ _ _ G) in Q. }
  { intros v l c Iv G Hcc Nin.
    assert (Hv : v < nv) by (rewrite <- (c_vconx _ _ Co); apply nth_error_Some; unfold get in G; congruence).
    rewrite Z by auto. replace (v <? nv) with true by (symmetry; apply Nat.ltb_lt; auto).
    destruct (mem v (nth c (y_conx f) [])) eqn:Mv; [|reflexivity]. exfalso. apply mem_In in Mv.
    destruct (nth_error (y_conx f) c) as [r|] eqn:Gr.
    2:{ apply nth_error_None in Gr. rewrite (c_conx _ _ Co) in Gr. lia. }
    rewrite (nth_error_nth _ _ _ Gr) in Mv. apply In_nth_error in Mv as (j & Gj).
    destruct (c_rows _ _ Co c r Gr) as (ts & Gt & Lt).
    destruct (nth_error ts j) as [t|] eqn:Gtj.
    2:{ apply nth_error_None in Gtj. assert (j < length r) by (apply nth_error_Some; congruence). lia. }
    assert (H : in_clause f c v t) by (exists j; unfold get2, get; rewrite Gr, Gt; auto).
    apply (c_same _ _ Co) in H as (i & H & _). unfold get2 in H. rewrite G in H. cbn [bind] in H.
    apply Nin. eapply nth_error_In; eauto. }
  rewrite A. cbn [bind]. rewrite slice_all by auto. cbn [bind].
  rewrite slice_all by (rewrite map_length; apply Co). cbn [bind].
  rewrite read_varconx_ok.
  2:{ apply Co. }
  2:{ intros v Hv Nu. destruct (nth v (y_vconx f) []) as [|c l] eqn:N; [reflexivity|]. exfalso. apply Nu.
      assert (G : nth_error (y_vconx f) v = Some (c :: l)).
      { rewrite <- N. apply nth_error_nth'. rewrite (c_vconx _ _ Co). auto. }
      destruct (in_view v _ c G (or_introl eq_refl)) as (t & H). eapply c_used; eauto. }
  cbn [bind]. rewrite slice_all by now rewrite map_length. cbn [bind].
  rewrite (read_rows_ok n0 (y_nc f) nv) by now apply shape_inj. cbn [bind]. rewrite B.
  eapply passes_intro; [reflexivity|now apply shape_concat_length|]. nia.
Qed.
End Ksat.

Theorem C89_ksat_extrinsic : forall nv nc M, nv <> 0 -> shape nc nv M -> test_passes nv (ut_ksat_extrinsic nv nc (inj M)).
Proof.
  intros nv nc M Hv SM. unfold ut_ksat_extrinsic. destruct (extrinsic_variable_same nc nv M SM) as (q & A & B).
  rewrite A. cbn [bind]. rewrite (read_rows_ok n0 nc nv) by now apply shape_inj. cbn [bind].
  change n0 with (Fin 0%Qc). rewrite <- map_repeat, B.
  eapply passes_intro; [reflexivity| |exact Hv]. rewrite map_length.
  unfold py_extrinsic_variable in A. rewrite (sum_axis0_ok nc) in A by auto.
  apply (f_equal (option_map (@length _))) in A. cbn [option_map] in A. rewrite !map_length, seq_length in A. congruence.
Qed.

(** ** KC-MWM *)
Section Kc.
Variables (D T P : nat).
Hypotheses (HD : D <> 0) (HT : T <> 0) (HP : P <> 0).

(** the test of the project constraints passes unless there are as many projects as teams *)
Theorem C89_kc_project : forall M, T <> P -> 2 <= T -> shape P T M -> test_passes (P * T) (ut_project T P (inj M)).
Proof.
  intros M Ne H2 SM. unfold ut_project. replace (T =? P) with false by (symmetry; now apply Nat.eqb_neq). cbn [negb].
  destruct (project_same P T M (np_zeros P T)) as (R & A & B & SR); auto using np_zeros_shape.
  rewrite A. cbn [bind]. rewrite (read_rows_ok n0 P T) by now apply shape_inj. cbn [bind]. rewrite B.
  eapply passes_intro; [reflexivity|now apply shape_concat_length|]. nia.
Qed.

(** the numbers are drawn between -300 and 300 *)
Theorem C89_kc_oric_to_team : forall M, shape P T M -> (forall p t, p < P -> t < T -> (qat M p t <= zq 300)%Qc) ->
  test_passes T (ut_oric_to_team T P (inj M)).
Proof.
  intros M SM Hb. unfold ut_oric_to_team.
  destruct (oric_team_same P T M (repeat n0 T)) as (R & A & B); auto. { apply repeat_length. }
  { intros t Ht. exists 0. split; [lia|]. eapply Qcle_trans; [apply Hb; auto; lia|]. unfold zq, Qcle. cbn. discriminate. }
  rewrite A. cbn [bind]. rewrite (read_rows_ok n0 P T) by now apply shape_inj. cbn [bind]. rewrite B.
  eapply passes_intro; [reflexivity| |exact HT].
  rewrite (py_oric_to_team_ok P T) in A by auto. injection A as <-. now rewrite map_length, seq_length.
Qed.

Theorem C89_kc_oric_to_project : forall M team reward, 2 <= P -> shape P T M -> length team = T -> shape P T reward ->
  exists y1 y2, ut_oric_to_project T P (inj M) (map Fin team) (inj reward) = Some (y1, y2) /\
    test_passes (P * T) (Some y1) /\ test_passes (P * T) (Some y2).
Proof.
  intros M team reward H2 SM Lt SR. unfold ut_oric_to_project.
  destruct (oric_same P T M reward team (np_zeros P T) (np_zeros P T)) as (A & B & E1 & E2 & SA & SB); auto using np_zeros_shape.
  rewrite E1. cbn [bind]. rewrite !(read_rows_ok n0 P T) by now apply shape_inj. cbn [bind].
  rewrite slice_all by now rewrite map_length. cbn [bind]. rewrite E2. cbn [bind].
  eexists _, _. split; [reflexivity|].
  split; (eapply passes_intro; [reflexivity|now apply shape_concat_length|nia]).
Qed.

Theorem C89_kc_team_to_oric : forall X reward, shape D T X -> length reward = T ->
  test_passes T (ut_team_to_oric D T (inj X) (map Fin reward)).
Proof.
  intros X reward SX Lr. unfold ut_team_to_oric.
  destruct (team_to_oric_same D T X reward (repeat n0 T)) as (R & A & B & LR); auto. { apply repeat_length. }
  rewrite A. cbn [bind]. rewrite slice_all by now rewrite map_length. cbn [bind].
  rewrite (read_rows_ok n0 D T) by now apply shape_inj. cbn [bind]. rewrite B.
  eapply passes_intro; [reflexivity|exact LR|exact HT].
Qed.

Theorem C89_kc_project_to_oric : forall M reward, shape P T M -> shape P T reward ->
  test_passes (P * T) (ut_project_to_oric T P (inj M) (inj reward)).
Proof.
  intros M reward SM SR. unfold ut_project_to_oric.
  destruct (project_to_oric_same P T M reward (np_zeros P T)) as (R & A & B & SQ); auto using np_zeros_shape.
  rewrite A. cbn [bind]. rewrite !(read_rows_ok n0 P T) by now apply shape_inj. cbn [bind]. rewrite B.
  eapply passes_intro; [reflexivity|now apply shape_concat_length|nia].
Qed.

Theorem C89_kc_extrinsic_team : forall X oric, shape D T X -> length oric = T ->
  test_passes T (ut_extrinsic_team D T (inj X) (map Fin oric)).
Proof.
  intros X oric SX Lo. unfold ut_extrinsic_team.
  destruct (extrinsic_team_same D T X oric (repeat n0 T)) as (R & A & B & LR); auto. { apply repeat_length. }
  rewrite A. cbn [bind]. rewrite (read_rows_ok n0 D T) by now apply shape_inj. cbn [bind].
  rewrite slice_all by now rewrite map_length. cbn [bind]. rewrite B.
  eapply passes_intro; [reflexivity|exact LR|exact HT].
Qed.

Theorem C89_kc_intrinsic : forall A B reward, shape P T A -> shape P T B -> shape P T reward ->
  test_passes (P * T) (ut_intrinsic T P (inj A) (inj B) (inj reward)).
Proof.
  intros A B reward SA SB SR. unfold ut_intrinsic.
  destruct (intrinsic_same P T A B reward (repeat n0 (P * T))) as (Q & E & SQ & E2); auto. { apply repeat_length. }
  rewrite E. cbn [bind]. rewrite !(read_rows_ok n0 P T) by now apply shape_inj. cbn [bind]. rewrite E2.
  eapply passes_intro; [reflexivity|now apply shape_concat_length|nia].
Qed.
End Kc.

(** ** Sizes and draws at which a test does not pass *)

(** as many projects as teams: the Python step asks for exactly one team, the C++ step for at most one *)
Theorem C89_kc_project_refuted : exists y z, ut_project 2 2 (inj (ints [[1; 2]; [3; 4]]%Z)) = Some (y, z) /\
  y <> z /\ verdict (Fin (Q2Qc (5 # 100))) (Fin (Q2Qc (1 # 10 ^ 8))) (y, z) = Some false.
Proof.
  destruct (ut_project 2 2 (inj (ints [[1; 2]; [3; 4]]%Z))) as [(y & z)|] eqn:E; [|vm_compute in E; discriminate].
  exists y, z. split; [reflexivity|].
  assert (V : option_map (fun r => verdict (Fin (Q2Qc (5 # 100))) (Fin (Q2Qc (1 # 10 ^ 8))) r)
                (ut_project 2 2 (inj (ints [[1; 2]; [3; 4]]%Z))) = Some (Some false)) by (vm_compute; reflexivity).
  rewrite E in V. cbn [option_map] in V. assert (W : verdict (Fin (Q2Qc (5 # 100))) (Fin (Q2Qc (1 # 10 ^ 8))) (y, z) = Some false) by congruence.
  split; [|exact W]. intros <-. unfold verdict in W. cbn [fst snd] in W.
  rewrite same_passes in W; [discriminate| |unfold Qcle; cbn; discriminate..].
  intros ->. vm_compute in E. discriminate.
Qed.
(** a single team or a single project: Python raises on the minimum of nothing *)
Theorem C89_kc_single_refuted : ut_project 1 2 (inj (ints [[1]; [2]]%Z)) = None /\
  ut_oric_to_project 2 1 (inj (ints [[1; 2]]%Z)) (map Fin [zq 1; zq 2]) (inj (ints [[1; 2]]%Z)) = None.
Proof. split; vm_compute; reflexivity. Qed.
(** two nodes: the degree step of Python raises, there is no other edge *)
Theorem C89_tsp_two_nodes_refuted : ut_degree 2 false (inj (ints [[1; 2]; [3; 4]]%Z)) (inj (ints [[1; 2]; [3; 4]]%Z)) = None.
Proof. vm_compute. reflexivity. Qed.
(** no cuts ([N_SUBTOURS] = 0): the comparison of empty arrays raises *)
Theorem C89_tsp_no_cuts_refuted : ut_subtour 3 [] [] = Some ([], []) /\ verdict (zn 1) (zn 1) ([], []) = None.
Proof. split; vm_compute; reflexivity. Qed.
(** draws above the initial minimum of the C++ step (1000000) would make a difference *)
Theorem C89_kc_oric_bound_refuted : exists y z,
  ut_oric_to_team 1 1 (inj (ints [[2000000]]%Z)) = Some (y, z) /\ verdict (zn 0) (zn 1) (y, z) = Some false.
Proof.
  destruct (ut_oric_to_team 1 1 (inj (ints [[2000000]]%Z))) as [(y & z)|] eqn:E; [|vm_compute in E; discriminate].
  exists y, z. split; [reflexivity|].
  assert (V : option_map (verdict (zn 0) (zn 1)) (ut_oric_to_team 1 1 (inj (ints [[2000000]]%Z))) = Some (Some false))
    by (vm_compute; reflexivity).
  rewrite E in V. cbn [option_map] in V. congruence.
Qed.

(** ** The switch for filtering cannot be used to switch it off: every text that is set counts as true for
    the C++ programs, every text but the empty one for the Python programs, "false", "False" and "0" included. *)
Theorem C89_flag : (forall s, cpp_flag (Some s) = true) /\ (forall s, py_flag s = true <-> s <> EmptyString).
Proof.
  split; [reflexivity|]. intros [|c s]; cbn; split; congruence.
Qed.
Example flag_texts : map cpp_flag [Some "false"; Some "0"; Some ""; None]%string = [true; true; true; false] /\
  map py_flag ["false"; "False"; "0"; ""]%string = [true; true; true; false].
Proof. split; reflexivity. Qed.

(** ** Examples *)
Definition U3 : list (list Qc) := ints [[5; 7; 2]; [3; 9; 4]; [8; 6; 1]]%Z.
Definition M6 : list (list Qc) := ints [[11; 12; 13]; [21; 22; 23]; [31; 32; 33]; [41; 42; 43]; [51; 52; 53]; [61; 62; 63]]%Z.
Definition S6 : list (list Qc) := ints [[10; 20; 30; 40; 50; 60]; [15; 25; 35; 45; 55; 65]]%Z.
Definition cuts6 : list (list nat) := [[4; 0; 3]; [5; 1]].
Example tsp_examples :
  2 <= 3 /\ shape 3 3 U3 /\ (forall i j, i < 3 -> j < 3 -> qat U3 i j <> 0%Qc) /\ shape (py_num_edges 3) 3 M6 /\
  shape (length cuts6) (py_num_edges 3) S6 /\ Forall (sample 3) cuts6 /\
  option_map (fun r => map view (fst r)) (ut_degree 3 true (inj U3) (inj M6))
    = Some (map view (concat (inj (ints [[-21; -62; 0]; [-11; 0; -43]; [-51; -42; 0]; [0; -32; -23]; [-31; 0; -63]; [0; -12; -53]]%Z)))) /\
  option_map (fun r => map view (fst r)) (ut_subtour 3 cuts6 (inj S6))
    = Some (map view (concat (inj (ints [[-40; 0; 0; -10; -10; 0]; [0; -65; 0; 0; 0; -25]]%Z)))) /\
  option_map (fun r => map view (fst r)) (ut_edge_to_degree_relaxed 3 true (inj U3) (inj M6))
    = Some (map view (concat (inj (ints [[19; 18; 0]; [25; 0; 23]; [39; 38; 0]; [0; 47; 46]; [55; 0; 53]; [0; 67; 66]]%Z)))) /\
  option_map (fun r => map view (snd r)) (ut_edge_to_subtour 3 false (inj U3) cuts6 (inj M6) (inj S6))
    = option_map (fun r => map view (fst r)) (ut_edge_to_subtour 3 false (inj U3) cuts6 (inj M6) (inj S6)) /\
  option_map (fun r => map view (snd r)) (ut_extrinsic_augmented 3 false (inj U3) cuts6 (inj M6) (inj S6))
    = Some (map (fun z => VFin (inject_Z z)) [33; 69; 63; 125; 154; 190]%Z).
Proof.
  split; [lia|]. split; [split; [reflexivity|repeat constructor]|]. split.
  { intros i j Hi Hj. destruct i as [|[|[|]]]; try lia; destruct j as [|[|[|]]]; try lia; intros E;
      apply (f_equal this) in E; vm_compute in E; discriminate. }
  split; [split; [reflexivity|repeat constructor]|]. split; [split; [reflexivity|repeat constructor]|].
  split.
  { repeat constructor; cbn; try lia; intros H; repeat destruct H as [H|H]; try discriminate; auto. }
  repeat split; vm_compute; reflexivity.
Qed.

(** the third draw repeats the first clause, so two clauses are left *)
Definition draws3 : list draw :=
  [{| d_first := 0; d_rest := [(0, true)] |}; {| d_first := 2; d_rest := [(0, false)] |};
   {| d_first := 1; d_rest := [(0, true)] |}].
Definition K2 : list (list Qc) := ints [[3; -5; 7]; [-2; 4; 6]]%Z.
Example ksat_examples :
  1 <= 2 /\ Forall (valid_draw 3 2) draws3 /\
  option_map (fun f => (y_nc f, y_conx f)) (create_formula 3 2 [true; false; true] (fun l => l) draws3)
    = Some (2, [[0; 1]; [2; 0]]) /\
  shape 2 3 K2 /\
  option_map (fun r => map view (snd r)) (ut_ksat_clause 3 2 [true; false; true] (fun l => l) draws3 (inj K2))
    = Some (map (fun z => VFin (inject_Z z)) [0; -3; 0; 6; 0; -2]%Z) /\
  option_map (fun r => map view (snd r))
      (ut_ksat_variable 3 2 [true; false; true] (fun l => l) draws3 (map Fin [zq 1; zq 2; zq 4]) (inj K2))
    = Some (map (fun z => VFin (inject_Z z)) [-1; 2; 0; 4; 0; 4]%Z) /\
  option_map (fun r => map view (snd r)) (ut_ksat_extrinsic 3 2 (inj K2))
    = Some (map (fun z => VFin (inject_Z z)) [1; -1; 13]%Z).
Proof.
  split; [lia|]. split.
  { repeat constructor; cbn; try lia; intros [|[|j]] i s H; cbn in H; try discriminate; injection H as <- <-; lia. }
  split; [vm_compute; reflexivity|]. split; [split; [reflexivity|repeat constructor]|].
  repeat split; vm_compute; reflexivity.
Qed.

Definition P23 : list (list Qc) := ints [[3; -5; 7]; [-2; 4; 6]]%Z.
Definition R23 : list (list Qc) := ints [[100; 200; 300]; [-10; 20; -30]]%Z.
Example kc_examples : shape 2 3 P23 /\ shape 2 3 R23 /\
  option_map (fun r => map view (snd r)) (ut_project 3 2 (inj P23))
    = Some (map (fun z => VFin (inject_Z z)) [5; 0; 5; 0; 2; 2]%Z) /\
  option_map (fun r => map view (snd r)) (ut_oric_to_team 3 2 (inj P23))
    = Some (map (fun z => VFin (inject_Z z)) [-2; -5; 6]%Z) /\
  option_map (fun r => map view (snd r)) (ut_team_to_oric 2 3 (inj P23) (map Fin [zq 1; zq 2; zq 4]))
    = Some (map (fun z => VFin (inject_Z z)) [2; 1; 17]%Z) /\
  option_map (fun r => map view (snd r)) (ut_project_to_oric 3 2 (inj P23) (inj R23))
    = Some (map (fun z => VFin (inject_Z z)) [103; 195; 307; -12; 24; -24]%Z) /\
  option_map (fun r => map view (snd r)) (ut_extrinsic_team 2 3 (inj P23) (map Fin [zq 1; zq 2; zq 4]))
    = Some (map (fun z => VFin (inject_Z z)) [2; 1; 17]%Z) /\
  option_map (fun r => map view (snd r)) (ut_intrinsic 3 2 (inj P23) (inj P23) (inj R23))
    = Some (map (fun z => VFin (inject_Z z)) [106; 190; 314; -14; 28; -18]%Z).
Proof.
  split; [split; [reflexivity|repeat constructor]|]. split; [split; [reflexivity|repeat constructor]|].
  repeat split; vm_compute; reflexivity.
Qed.

Print Assumptions C89_tsp_degree.
Print Assumptions C89_tsp_subtour.
Print Assumptions C89_tsp_relaxed.
Print Assumptions C89_tsp_extrinsic_relaxed.
Print Assumptions C89_tsp_edge_to_subtour.
Print Assumptions C89_tsp_augmented.
Print Assumptions C89_tsp_extrinsic_augmented.
Print Assumptions C89_ksat_clause.
Print Assumptions C89_ksat_variable.
Print Assumptions C89_ksat_extrinsic.
Print Assumptions C89_kc_project.
Print Assumptions C89_kc_oric_to_team.
Print Assumptions C89_kc_oric_to_project.
Print Assumptions C89_kc_team_to_oric.
Print Assumptions C89_kc_project_to_oric.
Print Assumptions C89_kc_extrinsic_team.
Print Assumptions C89_kc_intrinsic.
Print Assumptions C89_kc_project_refuted.
Print Assumptions C89_kc_single_refuted.
Print Assumptions C89_tsp_two_nodes_refuted.
Print Assumptions C89_tsp_no_cuts_refuted.
Print Assumptions C89_kc_oric_bound_refuted.
Print Assumptions C89_flag.
