(** * C85: the pure Python KC-MWM object: answers and totals *)
From Verif Require Import Num NumFacts Arr Spec ArrFacts M_Tsp_Run M_Ksat_Py M_Tsp_Post M_InOut M_Kc_Py M_Kc_Summary M_Runs M_PyRef_Run M_PyRef_Summary
  SpecKc SpecCover P_Ksat_Py P_InOut P_Tsp_Constraints P_Kc_Call T_PyRef_Run T_Kc_Best T_Kc_Summary.
From Coq Require Import Permutation.
From Verif Require Import Num.
Local Open Scope nat_scope.

(** ** Sums *)
Lemma qsum_cons x l : qsum (x :: l) = (x + qsum l)%Qc.
Proof. reflexivity. Qed.
Lemma qsum_or {A} (g : A -> Qc) (p q : A -> bool) l : (forall x, p x = true -> q x = false) ->
  qsum (map g (filter (fun x => p x || q x) l)) = (qsum (map g (filter p l)) + qsum (map g (filter q l)))%Qc.
Proof.
  intro H. induction l as [|x l IH]; [cbn; ring|]. cbn [filter]. specialize (H x).
  destruct (p x); [rewrite H by auto|destruct (q x)]; cbn [orb map]; rewrite ?qsum_cons, IH; ring.
Qed.
Lemma qsum_uses (f : nat -> Qc) (l : list (nat * nat)) t :
  qsum (map (fun c => f (snd c)) (filter (fun c => snd c =? t) l)) = (qn (length (uses l t)) * f t)%Qc.
Proof.
  unfold uses. induction l as [|c l IH]; [cbn; ring|]. cbn [filter]. destruct (Nat.eqb_spec (snd c) t) as [<-|N]; auto.
  cbn [map length qn]. rewrite qsum_cons, IH. ring.
Qed.
Lemma qsum_by_team (f : nat -> Qc) (l : list (nat * nat)) sel : NoDup sel ->
  qsum (map (fun c => f (snd c)) (filter (fun c => mem (snd c) sel) l)) =
  qsum (map (fun t => qn (length (uses l t)) * f t)%Qc sel).
Proof.
  induction 1 as [|t sel N Nd IH].
  - cbn. replace (filter (fun _ => false) l) with (@nil (nat * nat)); auto. induction l; auto.
  - cbn [map]. rewrite qsum_cons, <- IH, <- qsum_uses, <- qsum_or; auto.
    intros c E. apply Nat.eqb_eq in E. rewrite E. now apply mem_not_In.
Qed.

Lemma reshape_concat n k (M : list (list num)) : shape n k M -> reshape n k (concat M) = M.
Proof.
  intro S. unfold reshape. transitivity (map (fun i => nth i M []) (seq 0 (length M))); [|apply map_nth_seq]. pose proof S as [L _]. rewrite L. apply map_ext_in. intros i Hi. apply in_seq in Hi.
  pose proof (concat_slice n k M i S ltac:(lia)) as E. unfold slice in E. destruct (_ && _); [|discriminate]. injection E as E.
  rewrite <- E. f_equal. nia.
Qed.

Section Weight.
Variables (pp : bool) (rp : list (list Qc)) (P : nat) (teams : list team) (Sr : shape (length teams) P rp).
Variables (A : list (list num)) (p : kc_pre) (q : kc_post).
Hypothesis range : Forall (fun e => fst e < P /\ snd e < length teams) (p_pairs p).
Hypothesis reused : forall t, In t (p_reused p) <-> 2 <= length (uses (p_pairs p) t).
Hypothesis kept : forall t c1 c2 rest, pp = true -> uses (p_pairs p) t = c1 :: c2 :: rest -> kept_project (q_ic q) t = Some (fst (lower_use A c1 c2)).
Let R := transpose P (inj rp).
(** the pair whose value is added for a matched pair *)
Definition added (c : nat * nat) : nat * nat := if pp then counted pp A (p_pairs p) (snd c) else c.
Lemma ref_weight_ok l : forall a, incl l (p_pairs p) ->
  foldM (ref_weight_step pp R p q) l (Fin a) =
    Some (Fin (a + weight_sum rp (map added (filter (fun c => mem (snd c) (q_sel q)) l)))).
Proof.
  induction l as [|c l IH]; intros a Hi.
  - cbn. unfold weight_sum, qsum. cbn. do 2 f_equal. ring.
  - assert (Ic : In c (p_pairs p)) by (apply Hi; now left). assert (Hi' : incl l (p_pairs p)) by (intros x I; apply Hi; now right).
    assert (Er : (if mem (snd c) (p_reused p) && pp then kept_project (q_ic q) (snd c) else Some (fst c)) = Some (fst (added c)) /\
                 snd (added c) = snd c /\ In (added c) (p_pairs p)).
    { unfold added. destruct pp eqn:Epp; [|rewrite andb_false_r; auto]. rewrite andb_true_r.
      destruct (counted_in true A (p_pairs p) (fst c) (snd c)) as [I1 I2]; [now rewrite <- surjective_pairing|].
      split; [|auto]. assert (Ic' : In c (uses (p_pairs p) (snd c))) by now apply in_uses_iff.
      destruct (mem (snd c) (p_reused p)) eqn:Em.
      - apply mem_In, reused in Em. unfold counted. destruct (uses (p_pairs p) (snd c)) as [|c1 [|c2 rest]] eqn:Eu; cbn in Em; try lia.
        eapply kept; eauto.
      - apply mem_not_In in Em. rewrite reused in Em. unfold counted.
        destruct (uses (p_pairs p) (snd c)) as [|c1 [|c2 rest]] eqn:Eu; [destruct Ic'| |cbn in Em; lia].
        destruct Ic' as [->|[]]; auto. }
    destruct Er as (Er & Es & Ia). cbn [foldM filter]. unfold ref_weight_step at 1. rewrite Er. cbn [bind].
    destruct (mem (snd c) (q_sel q)) eqn:Eq; [|cbn [bind]; rewrite IH; auto].
    rewrite Forall_forall in range. pose proof (range _ Ia) as [H1 H2]. rewrite Es in H2.
    unfold R. rewrite (get_R rp P teams Sr) by auto. cbn [bind nadd]. fold R. rewrite IH by auto. do 2 f_equal.
    unfold weight_sum. cbn [map]. rewrite qsum_cons, Es. ring.
Qed.
End Weight.

(** ** C85 *)

(** The pure Python object gives the answer of the library's front end with the first post-processing
    option: same teams, same matched pairs, same remaining teams, same results. *)
Theorem C85_same_answer_partial :
  forall iters flag (alpha : Qc) thr pp caps types (rt : list Qc) (rp : list (list Qc)) P o teams,
    Forall (fun ty => 1 <= ty <= 5) types -> types <> [] ->
    kc_initialize caps types = Some o -> room caps types (o_combos o) -> generated caps types (o_combos o) teams ->
    nle thr n0 -> length rt = length teams -> shape (length teams) P rp -> 2 <= P -> 2 <= length teams ->
    (* missing: as many projects as teams, no iteration, filtering with [alpha = 0], a message above
       the constant 1000000 (as in C55) *)
    P <> length teams -> 1 <= iters -> (flag = true -> alpha <> 0%Qc) ->
    (forall i st, 1 <= i <= iters ->
       py_kc_iterate i flag (Fin alpha) (length teams) (length caps) P caps (o_weights o) (map Fin rt) (transpose P (inj rp)) = Some st ->
       Forall (fun v => nleb v (zn 1000000) = true) (kp_oric2team st)) ->
    exists a, kc_call iters flag (Fin alpha) thr pp 1 caps types (map Fin rt) (inj rp) = Some a /\
      ref_kc_call iters flag (Fin alpha) thr pp caps types (map Fin rt) (inj rp) = Some a.
Proof.
  intros iters flag alpha thr pp caps types rt rp P o teams Ht Hne E Hroom Hg Hthr Lr Sr HP HT HPT Hit Ha Hsm.
  destruct (summary iters flag alpha thr pp 1 caps types rt rp P o teams) as (a & _ & _ & _ & _ & _ & Ea & _); auto.
  exists a. split; [exact Ea|]. rewrite <- Ea.
  destruct (call_instance caps types o teams P rt rp) as (Inst & wf & Ec & HD); auto.
  destruct wf as (ET & _).
  assert (Etr : transpose P (inj rp) = inj (columns P rp)) by apply transpose_inj.
  destruct (kc_runs_agree (length teams) (length caps) P (o_weights o) (columns P rp) rt caps iters flag alpha) as
    (ext & intr & pairs & E1 & E2 & Sp); auto; [lia|intros i st; rewrite <- Etr; apply Hsm|].
  unfold kc_call, ref_kc_call. rewrite E. cbn [bind].
  destruct (get (inj rp) 0) as [r0|] eqn:E0; [|reflexivity]. cbn [bind].
  assert (EP : length r0 = P).
  { unfold get, inj in E0. rewrite nth_error_map in E0. destruct (nth_error rp 0) as [r|] eqn:E0'; [|discriminate]. injection E0 as <-.
    rewrite map_length. destruct Sr as [_ F]. rewrite Forall_forall in F. apply F. eapply nth_error_In; eauto. }
  rewrite EP, ET, Etr. destruct (_ && _ && _); [|reflexivity]. rewrite E2. unfold package_kc in E1.
  destruct (wrapper_kc_mwm _ _ _ _ _ _ _ _ _ _ _ _ _ _) as [[x y]|]; [|discriminate]. cbn [bind] in E1 |- *.
  injection E1 as -> <- ->. replace (reshape P (length teams) (concat pairs)) with pairs; [reflexivity|].
  symmetry. apply reshape_concat. exact Sp.
Qed.

(** With post-processing, the total weight printed by the pure Python object counts the value of
    every reported pair as often as its team was matched; the other totals are those of the reported
    pairs. *)
Theorem C85_totals_after :
  forall iters flag (alpha : Qc) thr caps types (rt : list Qc) (rp : list (list Qc)) P o teams,
    Forall (fun ty => 1 <= ty <= 5) types -> types <> [] ->
    kc_initialize caps types = Some o -> room caps types (o_combos o) -> generated caps types (o_combos o) teams ->
    nle thr n0 -> length rt = length teams -> shape (length teams) P rp ->
    exists a F z,
      kc_call iters flag (Fin alpha) thr true 1 caps types (map Fin rt) (inj rp) = Some a /\
      a_results a = map (fun e =>
        {| r_u := u_of teams (snd e); r_v := v_of teams (snd e); r_type := t_type (nth (snd e) teams (0, 0, 0));
           r_teams := [snd e + 1]; r_projects := [fst e + 1] |}) F /\
      ref_post_totals true P (map Fin rt) (transpose P (inj rp)) (a_pre a) (a_post a) = Some z /\
      z_value z = Fin (- qsum (map (fun e => nth (snd e) rt 0) F))%Qc /\
      z_teams z = length F /\ z_matched z = length F /\
      (z_all z = true <-> forall p, p < P -> exists t, In (p, t) F) /\
      z_weight z = Fin (qsum (map (fun e =>
        qn (length (filter (fun c => snd c =? snd e) (p_pairs (a_pre a)))) * qat rp (snd e) (fst e))%Qc F)).
Proof.
  intros iters flag alpha thr caps types rt rp P o teams Ht Hne E Hroom Hg Hthr Lr Sr.
  destruct (summary_parts iters flag alpha thr true 1 caps types rt rp P o teams) as
    (a & z0 & u & tw & z & F & (Ea & _ & Ez & NF & Hr & Ns & Hs & _ & _ & _ & _ & _ & _ & _ & (Hv & _ & Hn & Hm & Hall) & HS & HI & _ & NS & Hpp & _) & A & EF & Hre & Hk); auto.
  destruct (Hpp eq_refl) as (_ & Hres).
  assert (Frng : Forall (fun e => fst e < P /\ snd e < length teams) (p_pairs (a_pre a))).
  { apply Forall_forall. intros [r t] I. cbn. auto. }
  exists a, F. unfold ref_post_totals. unfold kc_post_totals in Ez.
  destruct (total_value (map Fin rt) (q_sel (a_post a))) as [v|]; [|discriminate]. cbn [bind] in Ez |- *.
  change n0 with (Fin 0). rewrite (ref_weight_ok true rp P teams Sr A (a_pre a) (a_post a) Frng Hre Hk) by apply incl_refl. cbn [bind].
  destruct (foldM (post_weight_step true _ _ _) _ _) as [[w s]|]; [|discriminate]. cbn [bind] in Ez. injection Ez as <-.
  cbn [z_value z_teams z_matched z_all] in *.
  eexists. split; [exact Ea|]. split; [exact Hres|]. split; [reflexivity|]. cbn [z_value z_teams z_matched z_all z_weight].
  do 4 (split; [assumption|]). f_equal. rewrite Qcplus_0_l. unfold weight_sum. rewrite map_map. unfold added.
  rewrite (qsum_by_team (fun t => qat rp (snd (counted true A (p_pairs (a_pre a)) t)) (fst (counted true A (p_pairs (a_pre a)) t)))) by (rewrite <- HS; exact NS).
  f_equal. transitivity (map (fun e => (qn (length (filter (fun c => snd c =? snd e) (p_pairs (a_pre a)))) * qat rp (snd e) (fst e))%Qc)
    (map (counted true A (p_pairs (a_pre a))) (q_sel (a_post a)))); [|now rewrite <- EF].
  rewrite map_map. apply map_ext_in. intros t I.
  rewrite <- HS in I. apply in_map_iff in I as ([r t'] & Et & I). cbn in Et. subst t'. apply HI in I.
  destruct (counted_in true A _ _ _ I) as [_ ->]. reflexivity.
Qed.

(** Without post-processing it is the sum over all matched pairs, the total printed before. *)
Theorem C85_totals_unrepaired :
  forall iters flag (alpha : Qc) thr caps types (rt : list Qc) (rp : list (list Qc)) P o teams,
    Forall (fun ty => 1 <= ty <= 5) types -> types <> [] ->
    kc_initialize caps types = Some o -> room caps types (o_combos o) -> generated caps types (o_combos o) teams ->
    nle thr n0 -> length rt = length teams -> shape (length teams) P rp ->
    exists a z z0 unmatched twice,
      kc_call iters flag (Fin alpha) thr false 1 caps types (map Fin rt) (inj rp) = Some a /\
      ref_post_totals false P (map Fin rt) (transpose P (inj rp)) (a_pre a) (a_post a) = Some z /\
      z_weight z = Fin (qsum (map (fun e => qat rp (snd e) (fst e)) (p_pairs (a_pre a)))) /\
      kc_pre_totals P (map Fin rt) (transpose P (inj rp)) (a_pre a) = Some (z0, unmatched, twice) /\
      z_value z = z_value z0 /\ z_weight z = z_weight z0 /\ z_teams z = z_teams z0.
Proof.
  intros iters flag alpha thr caps types rt rp P o teams Ht Hne E Hroom Hg Hthr Lr Sr.
  destruct (summary_parts iters flag alpha thr false 1 caps types rt rp P o teams) as
    (a & z0 & u & tw & z & F & (Ea & Ez0 & Ez & NF & Hr & Ns & Hs & Hv0 & Hw0 & Hn0 & _ & _ & _ & _ & (Hv & _ & Hn & Hm & Hall) & HS & HI & _ & NS & _ & Hpp) & A & EF & Hre & Hk); auto.
  destruct (Hpp eq_refl) as (Eq & _).
  assert (Frng : Forall (fun e => fst e < P /\ snd e < length teams) (p_pairs (a_pre a))).
  { apply Forall_forall. intros [r t] I. cbn. auto. }
  exists a. unfold ref_post_totals. unfold kc_post_totals in Ez.
  destruct (total_value (map Fin rt) (q_sel (a_post a))) as [v|]; [|discriminate]. cbn [bind] in Ez |- *.
  change n0 with (Fin 0). rewrite (ref_weight_ok false rp P teams Sr A (a_pre a) (a_post a) Frng Hre Hk) by apply incl_refl. cbn [bind].
  destruct (foldM (post_weight_step false _ _ _) _ _) as [[w s]|]; [|discriminate]. cbn [bind] in Ez. injection Ez as <-.
  cbn [z_value z_teams z_matched z_all] in *.
  assert (Ew : (0 + weight_sum rp (map (added false A (a_pre a)) (filter (fun c => mem (snd c) (q_sel (a_post a))) (p_pairs (a_pre a)))))%Qc =
    qsum (map (fun e => qat rp (snd e) (fst e)) (p_pairs (a_pre a)))).
  { rewrite Qcplus_0_l. unfold weight_sum, added. rewrite map_id. do 2 f_equal.
    rewrite Eq. assert (K : forall c, In c (p_pairs (a_pre a)) -> mem (snd c) (p_sel (a_pre a)) = true).
    { intros [r t] I. apply mem_In, Hs. now exists r. }
    revert K. generalize (p_sel (a_pre a)). generalize (p_pairs (a_pre a)). clear. intros l sel. induction l as [|c l IH]; intro K; auto.
    cbn [filter]. rewrite K by now left. f_equal. apply IH. intros d I. apply K. now right. }
  eexists _, z0, u, tw. split; [exact Ea|]. split; [reflexivity|]. cbn [z_value z_teams z_matched z_all z_weight].
  split; [now rewrite Ew|]. split; [exact Ez0|].
  split; [rewrite Hv0, Hv; f_equal; f_equal; rewrite <- (map_map snd (fun t => nth t rt 0%Qc)), HS, Eq; reflexivity|].
  split; [rewrite Hw0; now rewrite Ew|]. now rewrite Hn0, Eq.
Qed.

(** Full statement: both front ends print the same totals after the analysis.  True when no remaining
    team was matched to two projects. *)
Theorem C85_same_totals_partial :
  forall iters flag (alpha : Qc) thr pp caps types (rt : list Qc) (rp : list (list Qc)) P o teams,
    Forall (fun ty => 1 <= ty <= 5) types -> types <> [] ->
    kc_initialize caps types = Some o -> room caps types (o_combos o) -> generated caps types (o_combos o) teams ->
    nle thr n0 -> length rt = length teams -> shape (length teams) P rp ->
    exists a z, kc_call iters flag (Fin alpha) thr pp 1 caps types (map Fin rt) (inj rp) = Some a /\
      kc_post_totals pp P (map Fin rt) (transpose P (inj rp)) (a_pre a) (a_post a) = Some z /\
      ((forall p p' t, In t (q_sel (a_post a)) -> In (p, t) (p_pairs (a_pre a)) -> In (p', t) (p_pairs (a_pre a)) -> p = p') ->
       ref_post_totals pp P (map Fin rt) (transpose P (inj rp)) (a_pre a) (a_post a) = Some z).
Proof.
  intros iters flag alpha thr pp caps types rt rp P o teams Ht Hne E Hroom Hg Hthr Lr Sr.
  destruct (summary_parts iters flag alpha thr pp 1 caps types rt rp P o teams) as
    (a & z0 & u & tw & z & F & (Ea & _ & Ez & NF & Hr & Ns & Hs & _ & _ & _ & _ & _ & _ & _ & (Hv & Hw & Hn & Hm & Hall) & HS & HI & NFf & NS & _ & _) & A & EF & Hre & Hk); auto.
  assert (Frng : Forall (fun e => fst e < P /\ snd e < length teams) (p_pairs (a_pre a))).
  { apply Forall_forall. intros [r t] I. cbn. auto. }
  exists a, z. split; [exact Ea|]. split; [exact Ez|]. intro Once.
  unfold ref_post_totals. unfold kc_post_totals in Ez.
  destruct (total_value (map Fin rt) (q_sel (a_post a))) as [v|]; [|discriminate]. cbn [bind] in Ez |- *.
  change n0 with (Fin 0). rewrite (ref_weight_ok pp rp P teams Sr A (a_pre a) (a_post a) Frng Hre Hk) by apply incl_refl. cbn [bind].
  destruct (foldM (post_weight_step pp _ _ _) _ _) as [[w s]|]; [|discriminate]. cbn [bind] in Ez. injection Ez as <-.
  cbn [z_value z_teams z_matched z_all z_weight] in *. do 2 f_equal. rewrite Hw. f_equal. rewrite Qcplus_0_l. unfold weight_sum.
  apply qsum_perm, Permutation_map.
  assert (Eadd : map (added pp A (a_pre a)) (filter (fun c => mem (snd c) (q_sel (a_post a))) (p_pairs (a_pre a))) =
                 filter (fun c => mem (snd c) (q_sel (a_post a))) (p_pairs (a_pre a))).
  { rewrite <- map_id. apply map_ext_in. intros [r t] I. apply filter_In in I as [I J]. apply mem_In in J. cbn [snd] in J.
    unfold added. destruct pp; auto. cbn [snd]. destruct (counted_in true A _ _ _ I) as [K1 K2].
    destruct (counted true A (p_pairs (a_pre a)) t) as [r' t']. cbn in K2. subst t'. f_equal. eapply Once; eauto. }
  rewrite Eadd. apply NoDup_Permutation.
  - apply NoDup_filter. eapply NoDup_map_inv; exact NF.
  - eapply NoDup_map_inv; exact NS.
  - intros [r t]. rewrite filter_In, mem_In. cbn [snd]. split.
    + intros [I J]. assert (J' := J). rewrite <- HS in J. apply in_map_iff in J as ([r' t'] & Et & J). cbn in Et. subst t'.
      rewrite (Once r r' t); auto.
    + intro I. split; [now apply HI|]. rewrite <- HS. now apply (in_map snd) in I.
Qed.

(** Otherwise they differ: on the instance of C76 the answers are the same, team 0 is matched to two
    projects and reported with one of them, and the pure Python object counts its value twice. *)
Theorem C85_same_totals_refuted :
  exists o a z z',
    kc_initialize [2] [1; 3] = Some o /\ generated [2] [1; 3] (o_combos o) sum_teams /\ room [2] [1; 3] (o_combos o) /\
    kc_call 1 false n0 n0 true 1 [2] [1; 3] (map Fin sum_rt) (inj sum_rp) = Some a /\
    ref_kc_call 1 false n0 n0 true [2] [1; 3] (map Fin sum_rt) (inj sum_rp) = Some a /\
    map r_teams (a_results a) = [[1]; [2]] /\ map r_projects (a_results a) = [[2]; [3]] /\
    kc_post_totals true 4 (map Fin sum_rt) (transpose 4 (inj sum_rp)) (a_pre a) (a_post a) = Some z /\ z_weight z = zn (-100) /\
    ref_post_totals true 4 (map Fin sum_rt) (transpose 4 (inj sum_rp)) (a_pre a) (a_post a) = Some z' /\ z_weight z' = zn (-150).
Proof.
  destruct (sum_setup [1; 3] sum_teams [(1, 1)]) as [G Ro]; [now left|].
  do 4 eexists. split; [vm_compute; reflexivity|]. split; [exact G|]. split; [exact Ro|].
  split; [vm_compute; reflexivity|]. split; [vm_compute; reflexivity|]. split; [reflexivity|]. split; [reflexivity|].
  split; [vm_compute; reflexivity|]. split; [vm_compute; reflexivity|]. split; [vm_compute; reflexivity|]. vm_compute. reflexivity.
Qed.

(** the hypotheses of C85 on that instance *)
Example C85_example :
  exists o, Forall (fun ty => 1 <= ty <= 5) [1; 3] /\
    kc_initialize [2] [1; 3] = Some o /\ generated [2] [1; 3] (o_combos o) sum_teams /\ room [2] [1; 3] (o_combos o) /\
    length sum_rt = length sum_teams /\ shape (length sum_teams) 4 sum_rp /\
    (forall i st, 1 <= i <= 1 ->
       py_kc_iterate i false n0 (length sum_teams) 1 4 [2] (o_weights o) (map Fin sum_rt) (transpose 4 (inj sum_rp)) = Some st ->
       Forall (fun v => nleb v (zn 1000000) = true) (kp_oric2team st)) /\
    exists a, ref_kc_call 1 false n0 n0 false [2] [1; 3] (map Fin sum_rt) (inj sum_rp) = Some a /\
      p_pairs (a_pre a) = [(0, 0); (1, 0); (2, 1); (3, 2)] /\ q_sel (a_post a) = [0; 1; 2] /\
      exists z, ref_post_totals false 4 (map Fin sum_rt) (transpose 4 (inj sum_rp)) (a_pre a) (a_post a) = Some z /\
        z_weight z = zn (-210).
Proof.
  destruct (sum_setup [1; 3] sum_teams [(1, 1)]) as [G Ro]; [now left|].
  eexists. split; [repeat constructor; lia|]. split; [vm_compute; reflexivity|]. split; [exact G|]. split; [exact Ro|].
  split; [reflexivity|]. split; [split; [reflexivity|repeat constructor]|]. split.
  - intros i st Hi. assert (i = 1) as -> by lia. vm_compute. intros [= <-]. cbn. repeat constructor.
  - eexists. split; [vm_compute; reflexivity|]. split; [reflexivity|]. split; [reflexivity|].
    eexists. split; [vm_compute; reflexivity|]. vm_compute. reflexivity.
Qed.

Print Assumptions C85_same_answer_partial.
Print Assumptions C85_totals_after.
Print Assumptions C85_totals_unrepaired.
Print Assumptions C85_same_totals_partial.
Print Assumptions C85_same_totals_refuted.
