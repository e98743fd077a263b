(** * Proofs: the teams generated for the unit tests. *)
From Verif Require Import Num Arr ArrFacts Spec SpecKc M_Kc_Py M_Unit_Knapsack P_Ksat_Py P_Kc_Gen.
Local Open Scope nat_scope.

Section Gen.
Variable caps : list nat.
Local Notation D := (length caps).

(** what the rows hold after the blocks [bs] *)
Definition urows (g g' : gen) (bs : list team) : Prop :=
  length (gen_weights g') = D /\ length (gen_types g') = D /\
  (forall d, 1 <= d <= D -> nth (d - 1) (gen_weights g') [] =
     nth (d - 1) (gen_weights g) [] ++ flat_map (fun b => block caps b d) bs) /\
  (forall d, 1 <= d <= D -> nth (d - 1) (gen_types g') [] =
     nth (d - 1) (gen_types g) [] ++ flat_map (fun b => repeat (t_type b) (length (block caps b d))) bs).
Lemma urows_trans g1 g2 g3 a b : urows g1 g2 a -> urows g2 g3 b -> urows g1 g3 (a ++ b).
Proof.
  intros (_ & _ & W1 & T1) (A & B & W2 & T2). split; auto. split; auto.
  split; intros d Hd; [rewrite W2, W1|rewrite T2, T1]; rewrite ?flat_map_app, ?app_assoc; auto.
Qed.
Lemma urows_refl g : length (gen_weights g) = D -> length (gen_types g) = D -> urows g g [].
Proof. intros A B. split; auto. split; auto. cbn. split; intros; now rewrite app_nil_r. Qed.

Lemma ut_gen_type_ok g u v ty : length (gen_weights g) = D -> length (gen_types g) = D ->
  in_range caps (u, v, ty) -> exists g', ut_gen_type caps u v g ty = Some g' /\ urows g g' [(u, v, ty)].
Proof.
  intros L1 L2 Hr. unfold ut_gen_type.
  destruct (placed_block caps u v ty Hr) as (placed & E & ND & Hp & X). rewrite E. cbn [bind].
  set (t := (u, v, ty)) in *.
  destruct (place_all D (count_fn caps t) ty placed g) as (g1 & E1 & _ & A1 & B1 & C1 & D1); auto.
  rewrite E1. cbn [bind].
  destruct (Nat.eqb_spec (count_fn caps t) 0) as [Hc|Hc].
  - exists g1. split; [reflexivity|]. split; auto. split; auto. split.
    + intros d Hd. rewrite C1 by auto. cbn [flat_map]. rewrite <- X, !app_nil_r by auto. reflexivity.
    + intros d Hd. rewrite D1 by auto. cbn [flat_map t_type t snd]. rewrite <- X, !app_nil_r by auto. reflexivity.
  - fold (others_of caps u v).
    destruct (place_all D (count_fn caps t) ty (others_of caps u v) g1) as (g3 & E3 & _ & A3 & B3 & C3 & D3); auto.
    { rewrite others_fst. apply NoDup_filter. apply seq_NoDup. }
    { intros d. rewrite others_fst, filter_In. unfold units. rewrite in_seq. lia. }
    rewrite E3. exists g3. split; [reflexivity|]. split; auto. split; auto. split.
    + intros d Hd. rewrite C3 by auto. cbn [flat_map]. rewrite C1 by auto.
      rewrite <- X, app_nil_r, app_assoc by auto. reflexivity.
    + intros d Hd. rewrite D3 by auto. cbn [flat_map t_type t snd]. rewrite D1 by auto.
      rewrite <- X, app_nil_r, app_length, repeat_app, app_assoc by auto. reflexivity.
Qed.
Lemma ut_gen_types_ok u v types : Forall (fun ty => in_range caps (u, v, ty)) types -> forall g,
  length (gen_weights g) = D -> length (gen_types g) = D ->
  exists g', foldM (ut_gen_type caps u v) types g = Some g' /\ urows g g' (map (fun ty => (u, v, ty)) types).
Proof.
  induction types as [|ty types IH]; intros F g L1 L2.
  - exists g. split; auto. apply urows_refl; auto.
  - inversion F; subst. destruct (ut_gen_type_ok g u v ty) as (g1 & E1 & R1); auto.
    cbn [foldM]. rewrite E1. cbn [bind]. destruct (IH H2 g1) as (g2 & E2 & R2); try apply R1.
    exists g2. rewrite E2. split; auto. cbn [map]. apply (urows_trans g g1 g2 [_] _ R1 R2).
Qed.
Lemma ut_gen_combos_ok types combos : Forall (fun c => Forall (fun ty => in_range caps (c, ty)) types) combos -> forall g,
  length (gen_weights g) = D -> length (gen_types g) = D ->
  exists g', foldM (fun g c => foldM (ut_gen_type caps (fst c) (snd c)) types g) combos g = Some g' /\
    urows g g' (blocks types combos).
Proof.
  induction combos as [|[u v] combos IH]; intros F g L1 L2.
  - exists g. split; auto. apply urows_refl; auto.
  - inversion F; subst. destruct (ut_gen_types_ok u v types H1 g) as (g1 & E1 & R1); auto.
    cbn [foldM fst snd]. rewrite E1. cbn [bind]. destruct (IH H2 g1) as (g2 & E2 & R2); try apply R1.
    exists g2. rewrite E2. split; auto. apply (urows_trans g g1 g2 _ _ R1 R2).
Qed.

Variable types : list nat.
Hypotheses (HD : D <> 0) (Ht : Forall (fun ty => 1 <= ty <= 5) types).
Local Notation combos := (list_prod (units D) (units D)).
Hypothesis Hroom : room caps types combos.
Local Notation teams := (teams_of caps (blocks types combos)).

Lemma ut_in_range b : In b (blocks types combos) -> in_range caps b.
Proof.
  intros H. apply in_blocks in H as (H1 & H2). apply in_prod_iff in H1 as (Hu & Hv). unfold units in *.
  apply in_seq in Hu, Hv. rewrite Forall_forall in Ht. split; [|split]; [lia|lia|auto].
Qed.
Lemma ut_teams_ok : ut_teams caps types = Some (length teams, map (fun d => map (need d) teams) (seq 1 D)).
Proof.
  unfold ut_teams, ut_generate.
  destruct (ut_gen_combos_ok types combos) with
    (g := {| gen_reward := []; gen_weights := repeat [] D; gen_types := repeat (@nil nat) D |}) as (g & E & A & B & W & T).
  { apply Forall_forall. intros [u v] Hc. apply Forall_forall. intros ty Hty. apply ut_in_range. apply in_blocks. auto. }
  { apply repeat_length. } { apply repeat_length. }
  rewrite E. cbn [bind gen_weights gen_types] in *.
  assert (AL : forall b d, In b (blocks types combos) -> block caps b d = repeat (need d b) (count_fn caps b)).
  { intros b d Hb. apply block_aligned; auto using ut_in_range. }
  assert (EW : gen_weights g = map (fun d => map (need d) teams) (seq 1 D)).
  { apply list_ext_get; [now rewrite map_length, seq_length|]. intros i Hi. unfold get.
    rewrite (nth_error_nth' _ []) by auto. specialize (W (i + 1) ltac:(lia)). replace (i + 1 - 1) with i in W by lia.
    rewrite W, nth_repeat_nil. rewrite nth_error_map, (nth_error_nth' (seq 1 D) 0) by (rewrite seq_length; lia).
    rewrite seq_nth by lia. cbn [option_map app]. f_equal. rewrite map_teams. rewrite (Nat.add_comm i 1).
    apply flat_map_ext_in. auto. }
  assert (ET : nth 0 (gen_types g) [] = map t_type teams).
  { specialize (T 1 ltac:(lia)). cbn [Nat.sub] in T. rewrite T, nth_repeat_nil. cbn [app]. rewrite map_teams.
    apply flat_map_ext_in. intros b Hb. now rewrite AL, repeat_length. }
  unfold get. rewrite (nth_error_nth' (gen_types g) []) by lia. cbn [bind]. rewrite ET.
  rewrite (nth_error_nth' (gen_weights g) []) by lia. cbn [bind]. rewrite EW, map_length.
  assert (F : Forall (fun r => length r = length teams) (map (fun d => map (need d) teams) (seq 1 D))).
  { apply Forall_map, Forall_forall. intros d _. apply map_length. }
  rewrite (proj2 (forallb_forall _ _)); [reflexivity|]. rewrite Forall_forall in F. intros r Hr. rewrite (F r Hr).
  rewrite (F (nth 0 _ [])); [apply Nat.eqb_refl|]. apply nth_In. rewrite map_length, seq_length. lia.
Qed.
Lemma ut_weight d t : d < D -> t < length teams ->
  nth t (nth d (map (fun d => map (need d) teams) (seq 1 D)) []) 0 = need (d + 1) (nth t teams (0, 0, 0)).
Proof.
  intros Hd Htt. rewrite (nth_indep _ [] (map (need 0) teams)) by (rewrite map_length, seq_length; auto).
  rewrite (map_nth (fun d => map (need d) teams)). rewrite seq_nth by auto. rewrite (Nat.add_comm 1 d).
  rewrite (nth_indep _ 0 (need (d + 1) (0, 0, 0))) by (rewrite map_length; auto). apply map_nth.
Qed.
Lemma ut_team_block t : t < length teams -> In (nth t teams (0, 0, 0)) (blocks types combos) /\ sensible (nth t teams (0, 0, 0)).
Proof.
  intros H. pose proof (nth_In teams (0, 0, 0) H) as Hin. set (x := nth t teams (0, 0, 0)) in *. clearbody x.
  unfold teams_of in Hin. apply in_flat_map in Hin as (b & Hb & Hr). apply repeat_spec in Hr as Eb; subst b. split; auto.
  assert (Hc : count_fn caps x <> 0) by (intro E; rewrite E in Hr; destruct Hr).
  destruct (count_ok caps x (ut_in_range x Hb)) as [[S _]|[_ E]]; [auto|congruence].
Qed.
Lemma ut_fit d t : d < D -> t < length teams -> need (d + 1) (nth t teams (0, 0, 0)) <= nth d caps 0.
Proof.
  intros Hd H. destruct (ut_team_block t H) as (Hb & Hs). specialize (Hroom _ Hb Hs (d + 1) ltac:(lia)).
  rewrite Nat.add_sub in Hroom. lia.
Qed.
Lemma ut_some_team d : types <> [] -> d < D -> exists t, t < length teams /\ need (d + 1) (nth t teams (0, 0, 0)) <> 0.
Proof.
  intros Hne Hd. assert (exists ty, In ty types) as (ty & Ity) by (destruct types; [congruence|eexists; now left]).
  set (b := ((d + 1, d + 1), ty) : team).
  assert (Hb : In b (blocks types combos)).
  { apply in_blocks. unfold b. cbn [t_u t_v t_type fst snd]. split; [|exact Ity].
    apply in_prod; unfold units; apply in_seq; lia. }
  assert (Hs : sensible b) by (left; reflexivity).
  assert (Hc : count_fn caps b <> 0).
  { eapply team_count_pos; eauto using count_ok, ut_in_range. }
  assert (In b teams) as I.
  { unfold teams_of. apply in_flat_map. exists b. split; auto. destruct (count_fn caps b); [congruence|]. now left. }
  apply (In_nth _ _ (0, 0, 0)) in I as (t & Hlt & E). exists t. split; auto. intros Z.
  assert (Z' : need (d + 1) b = 0) by (rewrite <- E; exact Z). revert Z'. unfold need, b.
  cbn [t_u t_v t_type fst snd]. rewrite Nat.eqb_refl. rewrite Forall_forall in Ht. specialize (Ht ty).
  destruct (type_cases ty) as [->|[->|[->|[->| ->]]]]; [auto|cbn; lia..].
Qed.
End Gen.
Lemma ut_two_departments x d1 d2 d3 : d1 < d2 < d3 -> need d1 x = 0 \/ need d2 x = 0 \/ need d3 x = 0.
Proof.
  intros H. unfold need. destruct (Nat.eqb_spec d1 (t_u x)), (Nat.eqb_spec d1 (t_v x)), (Nat.eqb_spec d2 (t_u x)),
    (Nat.eqb_spec d2 (t_v x)), (Nat.eqb_spec d3 (t_u x)), (Nat.eqb_spec d3 (t_v x)); auto; lia.
Qed.
