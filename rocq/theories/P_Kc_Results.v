(** * KC-MWM: selection, reuse of teams, results: proofs. *)
From Coq Require Import Sorting.Sorted.
From Verif Require Import Num NumFacts Arr ArrFacts Spec M_Tsp_Run M_Ksat_Py M_Tsp_Post M_Kc_Py SpecKc.
From Verif Require Import P_Ksat_Py P_Kc_Gen P_Kc_Post.
Local Open Scope nat_scope.

(** ** Selection *)
Lemma nle_0_neq1 thr : nle thr n0 -> neqb thr n1 = false.
Proof.
  intro H. destruct (neqb thr n1) eqn:E; auto. apply neqb_eq in E as [-> _]. exfalso.
  apply nle_Fin in H. revert H. vm_compute. auto.
Qed.
Lemma decide_iff thr v : nle thr n0 -> (neqb (kc_decide thr v) n1 = nlt v thr).
Proof.
  intro H. unfold kc_decide, ngt. destruct (nlt thr v) eqn:E1.
  - assert (E0 : nlt n0 thr = false) by (apply nle_nlt; auto). rewrite E0.
    assert (E2 : nlt v thr = false).
    { apply nle_nlt. apply nlt_true; auto. }
    rewrite E2. reflexivity.
  - destruct (nlt v thr) eqn:E2; [reflexivity|].
    destruct (is_nan v) eqn:En; [destruct v; try discriminate; reflexivity|].
    assert (Hv : notnan v) by (destruct v; discriminate || (intro; discriminate)).
    assert (Ht : notnan thr) by (eapply nle_notnan_l; eauto).
    assert (v = thr) by (apply nle_antisym; apply nlt_false; auto). subst v. apply nle_0_neq1; auto.
Qed.
Lemma in_positions {A} (m : list (list A)) i j :
  In (i, j) (positions m) <-> i < length m /\ j < length (nth i m []).
Proof.
  unfold positions. rewrite in_concat. split.
  - intros (l & Hl & Hin). apply in_map_iff in Hl as (a & <- & Ha). apply in_map_iff in Hin as (b & E & Hb).
    injection E as -> ->. apply in_seq in Ha. apply in_seq in Hb. lia.
  - intros [Hi Hj]. exists (map (pair i) (seq 0 (length (nth i m [])))). split.
    + apply in_map_iff. exists i. split; auto. apply in_seq. lia.
    + apply in_map_iff. exists j. split; auto. apply in_seq. lia.
Qed.
Lemma positions_get2 {A} (m : list (list A)) i j (d : A) : In (i, j) (positions m) <-> get2 m i j = Some (nth j (nth i m []) d).
Proof.
  rewrite in_positions. unfold get2, get. split.
  - intros [Hi Hj]. rewrite (nth_error_nth' m []) by auto. cbn [bind]. apply nth_error_nth'; auto.
  - destruct (nth_error m i) as [r|] eqn:E; [|discriminate]. cbn [bind]. intro H.
    split; [apply nth_error_Some; congruence|]. rewrite (nth_error_nth _ _ _ E) in *. apply nth_error_Some. congruence.
Qed.
Lemma in_matching thr A p t : nle thr n0 ->
  (In (p, t) (matching thr A) <-> exists v, get2 A p t = Some v /\ nlt v thr = true).
Proof.
  intro H. unfold matching. rewrite filter_In, (positions_get2 _ _ _ NaN). cbn [fst snd]. rewrite decide_iff by auto. split.
  - intros [E L]. eauto.
  - intros (v & E & L). assert (Ev : nth t (nth p A []) NaN = v).
    { unfold get2, get in E. destruct (nth_error A p) as [r|] eqn:Er; [|discriminate]. cbn [bind] in E.
      rewrite (nth_error_nth _ _ _ Er). apply nth_error_nth; auto. }
    rewrite Ev. auto.
Qed.
Lemma matching_range thr P T A p t : shape P T A -> In (p, t) (matching thr A) -> p < P /\ t < T.
Proof.
  intros [L F] H. unfold matching in H. apply filter_In in H as [H _]. apply in_positions in H as [H1 H2].
  split; [lia|]. rewrite Forall_forall in F. rewrite F in H2; auto. apply nth_In; auto.
Qed.
Lemma matching_value thr A p t : In (p, t) (matching thr A) -> exists v, get2 A p t = Some v.
Proof.
  unfold matching. rewrite filter_In, (positions_get2 _ _ _ NaN). intros [H _]. eauto.
Qed.

(** ** Reused teams *)
Lemma uses_app a b t : uses (a ++ b) t = uses a t ++ uses b t.
Proof. apply filter_app. Qed.
Lemma find_filter {A} (f : A -> bool) l : find f l = hd_error (filter f l).
Proof. induction l as [|a l IH]; cbn; auto. destruct (f a); auto. Qed.
Lemma reuse_inv pairs :
  let '(visited, reused, entries) := fold_left reuse_step pairs ([], [], []) in
  forall t, uses visited t = firstn 1 (uses pairs t) /\
    (In t reused <-> 2 <= length (uses pairs t)) /\
    filter (fun e : (nat * nat) * (nat * nat) => snd (fst e) =? t) entries =
      match uses pairs t with [] => [] | c1 :: rest => map (fun c => (c, c1)) rest end.
Proof.
  induction pairs as [|pt pairs IH] using rev_ind.
  - cbn. intro t. split; auto. split; auto. split; [tauto|lia].
  - rewrite fold_left_app. cbn [fold_left]. destruct (fold_left reuse_step pairs ([], [], [])) as [[visited reused] entries].
    unfold reuse_step. rewrite find_filter. change (filter (fun c => snd c =? snd pt) visited) with (uses visited (snd pt)).
    destruct (IH (snd pt)) as (I1 & I2 & I3). rewrite I1.
    destruct (uses pairs (snd pt)) as [|c1 rest] eqn:Eu; cbn [firstn hd_error].
    + intro t. destruct (IH t) as (J1 & J2 & J3). rewrite !uses_app. cbn [uses filter].
      destruct (Nat.eqb_spec (snd pt) t) as [<- |Hne].
      * rewrite Eu, I1. cbn [app firstn]. split; auto. split; [|auto]. rewrite I2. cbn. lia.
      * rewrite !app_nil_r. auto.
    + intro t. destruct (IH t) as (J1 & J2 & J3). rewrite !uses_app. cbn [uses filter]. rewrite filter_app. cbn [filter fst snd].
      destruct (Nat.eqb_spec (snd pt) t) as [<- |Hne].
      * rewrite Eu, I1, I3. cbn [app firstn]. split; auto. split.
        -- rewrite in_app_iff. cbn [In length]. rewrite app_length. cbn [length]. split; [lia|auto].
        -- rewrite map_app. reflexivity.
      * rewrite !app_nil_r. split; auto. split; auto. rewrite in_app_iff, <- J2. cbn. intuition.
Qed.

Lemma ic_choose_ok A c2 c1 x2 x1 : get2 A (fst c2) (snd c2) = Some x2 -> get2 A (fst c1) (snd c1) = Some x1 ->
  nlt x2 (zn 1000000000) = true -> nlt x1 (zn 1000000000) = true ->
  ic_choose A (c2, c1) = Some (Some (if nlt x1 x2 then c1 else c2)).
Proof.
  intros G2 G1 L2 L1. unfold ic_choose. cbn [fst snd foldM]. rewrite G2. cbn [bind]. rewrite L2. rewrite G1. cbn [bind].
  destruct (nlt x1 x2); reflexivity.
Qed.

Section Results.
Variables (o : kc_obj) (teams : list team).
Hypothesis wf : wf_obj o teams.
Notation D := (length (o_caps o)).
Notation T := (length teams).

Lemma in_selected m t : (forall p t, In (p, t) m -> t < T) -> (In t (selected_teams (o_teams o) m) <-> exists p, In (p, t) m).
Proof.
  intro Hr. unfold selected_teams. rewrite filter_In, mem_iff, in_map_iff, in_seq. split.
  - intros [_ ((p & t') & <- & H)]. eauto.
  - intros (p & H). split; [destruct wf as (-> & _); specialize (Hr _ _ H); lia|]. exists (p, t). auto.
Qed.
Lemma pre_ok thr P A : shape P T A ->
  exists p, kc_pre_analysis o thr A = Some p /\ p_pairs p = matching thr A /\
    linv o teams {| l_weights := p_weights p; l_sel := p_sel p; l_locs := p_locs p |} /\
    (forall t, In t (p_sel p) <-> exists q, In (q, t) (p_pairs p)) /\
    (p_exceeded p = false <-> within_capacity (o_caps o) teams (p_sel p)) /\
    (forall t, (In t (p_reused p) <-> 2 <= length (uses (p_pairs p) t)) /\
       filter (fun e : (nat * nat) * (nat * nat) => snd (fst e) =? t) (p_entries p) =
         match uses (p_pairs p) t with [] => [] | c1 :: rest => map (fun c => (c, c1)) rest end).
Proof.
  intro HA. set (pairs := matching thr A). set (sel := selected_teams (o_teams o) pairs).
  assert (Hr : forall q t, In (q, t) pairs -> t < T) by (intros q t Hin; eapply matching_range; eauto).
  assert (Hs : forall t, In t sel <-> exists q, In (q, t) pairs) by (intro t; apply in_selected; auto).
  assert (Fs : Forall (fun t => t < T) sel).
  { apply Forall_forall. intros t Ht. apply Hs in Ht as (q & Hq). eauto. }
  unfold kc_pre_analysis. fold pairs. fold sel.
  destruct (add_all_ok o teams wf sel Fs) as (tw & Etw & Htw). rewrite Etw. cbn [bind].
  rewrite Forall_forall in Fs.
  rewrite (mapM_const _ (fun t => t_type (nth t teams (0, 0, 0)))) by (intros t Ht; apply wf_type; auto). cbn [bind].
  rewrite (mapM_const _ (loc_of o)) by (intros t Ht; apply (wf_team o teams wf); auto). cbn [bind].
  rewrite (mapM_const (get (o_combos o)) (fun l => match nth_error (o_combos o) l with Some c => c | None => (0, 0) end)).
  2:{ intros l Hl. apply in_map_iff in Hl as (t & <- & Ht).
      destruct (wf_team o teams wf t (Fs t Ht)) as (_ & _ & _ & _ & E). unfold get. rewrite E. reflexivity. }
  cbn [bind]. pose proof (reuse_inv pairs) as RI.
  destruct (fold_left reuse_step pairs ([], [], [])) as [[visited reused] entries].
  eexists. split; [reflexivity|]. cbn [p_pairs p_sel p_weights p_locs p_exceeded p_reused p_entries]. split; auto. split; [|split; [|split]].
  - constructor; cbn [l_sel l_locs l_weights]; auto.
    + apply incr_filter, incr_seq.
    + apply Forall_forall. auto.
  - auto.
  - rewrite <- (not_exceeding o teams tw sel Htw). destruct (exceeding (o_caps o) tw); cbn [nonempty]; intuition discriminate.
  - intro t. destruct (RI t) as (_ & I2 & I3). auto.
Qed.

Lemma removals_facts caps tms step sel sel' : removals caps tms step sel sel' -> incl sel' sel /\ within_capacity caps tms sel'.
Proof.
  induction 1 as [sel H|sel t sel' H1 H2 H3 [IH1 IH2]]; [split; [intros x Hx; auto|auto]|].
  split; auto. intros x Hx. apply IH1, filter_In in Hx. tauto.
Qed.
Lemma post_ok pp opt A intr p : length intr = T -> Forall notnan intr -> (pp = true -> opt = 1 \/ opt = 2) ->
  linv o teams {| l_weights := p_weights p; l_sel := p_sel p; l_locs := p_locs p |} ->
  (p_exceeded p = false <-> within_capacity (o_caps o) teams (p_sel p)) ->
  (pp = true -> forall e, In e (p_entries p) -> exists c, ic_choose A e = Some c) ->
  exists q, kc_post_analysis o pp opt A intr p = Some q /\
    incr (q_sel q) /\ incl (q_sel q) (p_sel p) /\ q_locs q = map (loc_of o) (q_sel q) /\
    (if pp then
       mapM (ic_choose A) (p_entries p) = Some (q_ic q) /\
       removals (o_caps o) teams
         (if opt =? 1 then removes_1 (o_caps o) teams (val intr) else removes_2 (o_caps o) teams (val intr))
         (p_sel p) (q_sel q)
     else q_sel q = p_sel p /\ q_ic q = []).
Proof.
  intros Li Hn Hopt HL Hx Hic. unfold kc_post_analysis. destruct pp.
  2:{ eexists. split; [reflexivity|]. cbn [q_sel q_locs q_ic]. split; [apply (li_incr _ _ _ HL)|].
      split; [intros x H; auto|]. split; [apply (li_locs _ _ _ HL)|]. auto. }
  destruct (mapM_all (ic_choose A) (p_entries p)) as (ic & Eic & _); [auto|].
  assert (G : forall cands step,
    (forall l, linv o teams l -> exists l', repair cands (length (l_sel l)) o intr l = Some l' /\ linv o teams l' /\
        removals (o_caps o) teams step (l_sel l) (l_sel l')) ->
    exists q, (ic <- mapM (ic_choose A) (p_entries p) ;;
       l <- (if p_exceeded p then repair cands (length (p_sel p)) o intr {| l_weights := p_weights p; l_sel := p_sel p; l_locs := p_locs p |}
             else Some {| l_weights := p_weights p; l_sel := p_sel p; l_locs := p_locs p |}) ;;
       Some {| q_sel := l_sel l; q_locs := l_locs l; q_ic := ic |}) = Some q /\
    incr (q_sel q) /\ incl (q_sel q) (p_sel p) /\ q_locs q = map (loc_of o) (q_sel q) /\
    mapM (ic_choose A) (p_entries p) = Some (q_ic q) /\ removals (o_caps o) teams step (p_sel p) (q_sel q)).
  { intros cands step Hrep. rewrite Eic. cbn [bind]. destruct (p_exceeded p) eqn:Ex.
    - destruct (Hrep _ HL) as (l' & El & HL' & R). cbn [l_sel] in El, R. rewrite El. cbn [bind].
      eexists. split; [reflexivity|]. cbn [q_sel q_locs q_ic]. split; [apply (li_incr _ _ _ HL')|].
      split; [apply (removals_facts _ _ _ _ _ R)|]. split; [apply (li_locs _ _ _ HL')|]. auto.
    - cbn [bind]. eexists. split; [reflexivity|]. cbn [q_sel q_locs q_ic l_sel l_locs]. split; [apply (li_incr _ _ _ HL)|].
      split; [intros x H; auto|]. split; [apply (li_locs _ _ _ HL)|]. split; auto. apply rem_stop. apply Hx; auto. }
  destruct (Hopt eq_refl) as [-> | ->]; cbn [bind Nat.eqb]; apply G; intros l Hl.
  - apply repair_1; auto.
  - apply repair_2; auto.
Qed.

(** ** Results *)
Lemma team_result sel i t : Forall (fun t => t < T) sel -> nth_error sel i = Some t ->
  (loc <- get (map (loc_of o) sel) i ;; get (o_combos o) loc) = Some (u_of teams t, v_of teams t).
Proof.
  intros F E. unfold get at 1. rewrite nth_error_map, E. cbn [option_map bind].
  assert (Ht : t < T). { rewrite Forall_forall in F. apply F. eapply nth_error_In; eauto. }
  destruct (wf_team o teams wf t Ht) as (_ & _ & _ & _ & Ec). exact Ec.
Qed.
Definition result_of (A : list (list num)) (pairs : list (nat * nat)) (pp : bool) (t : nat) : kc_result :=
  let r := reported A pairs pp t in
  {| r_u := u_of teams t; r_v := v_of teams t; r_type := t_type (nth t teams (0, 0, 0));
     r_teams := map (fun c => snd c + 1) r; r_projects := map (fun c => fst c + 1) r |}.

Section Kept.
Variables (A : list (list num)) (p : kc_pre).
Hypothesis low : forall c, In c (p_pairs p) -> exists x, get2 A (fst c) (snd c) = Some x /\ nlt x (zn 1000000000) = true.
Hypothesis entries : forall t, (In t (p_reused p) <-> 2 <= length (uses (p_pairs p) t)) /\
   filter (fun e : (nat * nat) * (nat * nat) => snd (fst e) =? t) (p_entries p) =
     match uses (p_pairs p) t with [] => [] | c1 :: rest => map (fun c => (c, c1)) rest end.
Definition chosen (e : (nat * nat) * (nat * nat)) := lower_use A (snd e) (fst e).
Lemma get2_nth (M : list (list num)) i j x : get2 M i j = Some x -> nth j (nth i M []) n0 = x.
Proof.
  unfold get2, get. destruct (nth_error M i) as [r|] eqn:E; [|discriminate]. cbn [bind]. intro H.
  rewrite (nth_error_nth _ _ _ E). apply nth_error_nth. auto.
Qed.
Lemma in_uses t c : In c (uses (p_pairs p) t) -> In c (p_pairs p) /\ snd c = t.
Proof. unfold uses. rewrite filter_In, Nat.eqb_eq. auto. Qed.
Lemma entry_ok e : In e (p_entries p) ->
  ic_choose A e = Some (Some (chosen e)) /\ snd (chosen e) = snd (fst e) /\ In (chosen e) (p_pairs p).
Proof.
  intro He. set (t := snd (fst e)).
  assert (Hf : In e (filter (fun e : (nat * nat) * (nat * nat) => snd (fst e) =? t) (p_entries p))).
  { apply filter_In. split; auto. apply Nat.eqb_refl. }
  destruct (entries t) as (_ & Ef). rewrite Ef in Hf. destruct (uses (p_pairs p) t) as [|c1 rest] eqn:Eu; [destruct Hf|].
  apply in_map_iff in Hf as (c & <- & Hc).
  destruct (in_uses t c1) as (H1 & T1); [rewrite Eu; cbn; auto|].
  destruct (in_uses t c) as (H2 & T2); [rewrite Eu; cbn; auto|].
  destruct (low _ H1) as (x1 & G1 & L1). destruct (low _ H2) as (x2 & G2 & L2).
  rewrite (ic_choose_ok _ _ _ _ _ G2 G1 L2 L1). unfold chosen, lower_use. cbn [fst snd].
  rewrite (get2_nth _ _ _ _ G1), (get2_nth _ _ _ _ G2). destruct (nlt x1 x2); split; auto.
Qed.
Lemma ic_all : mapM (ic_choose A) (p_entries p) = Some (map (fun e => Some (chosen e)) (p_entries p)).
Proof. apply mapM_const. intros e He. apply entry_ok, He. Qed.
Lemma kept_ok t c1 c2 rest : uses (p_pairs p) t = c1 :: c2 :: rest ->
  kept_project (map (fun e => Some (chosen e)) (p_entries p)) t = Some (fst (lower_use A c1 c2)).
Proof.
  intro Eu. unfold kept_project.
  assert (E1 : forall l : list ((nat * nat) * (nat * nat)), mapM (fun c => c) (map (fun e => Some (chosen e)) l) = Some (map chosen l)).
  { induction l as [|a l IH]; auto. cbn [map mapM bind]. rewrite IH. reflexivity. }
  rewrite E1. cbn [bind].
  assert (E2 : forall l, (forall e, In e l -> snd (chosen e) = snd (fst e)) ->
    filter (fun c => snd c =? t) (map chosen l) = map chosen (filter (fun e => snd (fst e) =? t) l)).
  { induction l as [|a l IH]; intro Hl; auto. cbn [map filter]. rewrite (Hl a) by (cbn; auto).
    destruct (snd (fst a) =? t); cbn [map]; rewrite IH by (intros; apply Hl; cbn; auto); reflexivity. }
  rewrite E2 by (intros e He; apply entry_ok, He). destruct (entries t) as (_ & ->). rewrite Eu. reflexivity.
Qed.
Lemma results_ok pp q : Forall (fun t => t < T) (q_sel q) -> q_locs q = map (loc_of o) (q_sel q) ->
  (pp = true -> mapM (ic_choose A) (p_entries p) = Some (q_ic q)) ->
  kc_results o pp p q = Some (map (result_of A (p_pairs p) pp) (q_sel q)).
Proof.
  intros F El Hic. unfold kc_results. rewrite El.
  rewrite (mapM_const _ (fun i => result_of A (p_pairs p) pp (nth i (q_sel q) 0))).
  - f_equal. rewrite <- (map_map (fun i => nth i (q_sel q) 0)). f_equal. apply P_InOut.map_nth_seq.
  - intros i Hi. apply in_seq in Hi. set (t := nth i (q_sel q) 0).
    assert (Ei : nth_error (q_sel q) i = Some t) by (apply nth_error_nth'; lia).
    unfold get at 1. rewrite Ei. cbn [bind].
    assert (Ht : t < T). { rewrite Forall_forall in F. apply F. eapply nth_error_In; eauto. }
    assert (Hp : (if mem t (p_reused p) && pp
              then proj <- kept_project (q_ic q) t ;; Some (filter (fun c => fst c =? proj) (p_pairs p))
              else Some (filter (fun c => snd c =? t) (p_pairs p))) = Some (reported A (p_pairs p) pp t)).
    { destruct (entries t) as (Hre & _). change (filter (fun c => snd c =? t) (p_pairs p)) with (uses (p_pairs p) t).
      unfold reported. destruct (uses (p_pairs p) t) as [|c1 [|c2 rest]] eqn:Eu; cbn [length] in Hre.
      - replace (mem t (p_reused p)) with false; auto. symmetry. apply mem_not_In. intro H. apply Hre in H. lia.
      - replace (mem t (p_reused p)) with false; auto. symmetry. apply mem_not_In. intro H. apply Hre in H. lia.
      - replace (mem t (p_reused p)) with true by (symmetry; apply mem_In, Hre; lia). cbn [andb]. destruct pp; auto.
        specialize (Hic eq_refl). rewrite ic_all in Hic. injection Hic as <-.
        rewrite (kept_ok t c1 c2 rest Eu). reflexivity. }
    rewrite Hp. cbn [bind]. pose proof (team_result _ _ _ F Ei) as E2.
    destruct (get (map (loc_of o) (q_sel q)) i) as [loc|]; [|discriminate]. cbn [bind] in E2 |- *. rewrite E2. cbn [bind fst snd].
    rewrite (wf_type o teams wf t Ht). reflexivity.
Qed.
End Kept.
Lemma final_ok q : Forall (fun t => t < T) (q_sel q) ->
  exists b, kc_final_exceeded o q = Some b /\ (b = false <-> within_capacity (o_caps o) teams (q_sel q)).
Proof.
  intro F. unfold kc_final_exceeded. destruct (add_all_ok o teams wf _ F) as (tw & -> & Htw). cbn [bind].
  eexists. split; [reflexivity|]. rewrite <- (not_exceeding o teams tw _ Htw).
  destruct (exceeding (o_caps o) tw); cbn [nonempty]; intuition discriminate.
Qed.
End Results.
