(** * KC-MWM: a complete call: proofs. *)
From Coq Require Import Sorting.Sorted.
From Verif Require Import Num NumFacts Arr ArrFacts Spec M_InOut M_Runs M_Tsp_Run M_Ksat_Py M_Tsp_Post M_Kc_Py SpecKc.
From Verif Require Import P_InOut P_Ksat_Py P_Kc_Gen P_Kc_Post P_Kc_Results T_Runs.
Local Open Scope nat_scope.

Lemma wf_shape o teams : wf_obj o teams -> shape (length (o_caps o)) (length teams) (o_weights o).
Proof.
  intros (_ & _ & L & W & _). split; auto. apply Forall_forall. intros r Hr.
  apply In_nth_error in Hr as (d & Hd).
  assert (d < length (o_weights o)) by (apply nth_error_Some; congruence).
  specialize (W (d + 1)). replace (d + 1 - 1) with d in W by lia. rewrite W in Hd by lia. injection Hd as <-.
  apply map_length.
Qed.
Lemma wf_row o teams d ws : wf_obj o teams -> nth_error (o_weights o) d = Some ws ->
  d < length (o_caps o) /\ ws = map (need (d + 1)) teams.
Proof.
  intros (_ & _ & L & W & _) Hd.
  assert (d < length (o_weights o)) by (apply nth_error_Some; congruence).
  split; [lia|]. specialize (W (d + 1)). replace (d + 1 - 1) with d in W by lia. rewrite W in Hd by lia. congruence.
Qed.
Lemma wf_nth o teams d t : wf_obj o teams -> d < length (o_caps o) -> t < length teams ->
  nth t (nth d (o_weights o) []) 0 = need (d + 1) (nth t teams (0, 0, 0)).
Proof.
  intros (_ & _ & L & W & _) Hd Ht. specialize (W (d + 1)). replace (d + 1 - 1) with d in W by lia.
  rewrite (nth_error_nth _ _ _ (W ltac:(lia))). rewrite (nth_indep _ 0 (need (d + 1) (0, 0, 0))) by (rewrite map_length; auto).
  apply map_nth.
Qed.
Lemma wf_fits o teams : wf_obj o teams -> forall d ws cap, nth_error (o_weights o) d = Some ws ->
  nth_error (o_caps o) d = Some cap -> Forall (fun w => w <= cap) ws.
Proof.
  intros wf d ws cap Hd Hc. destruct (wf_row _ _ _ _ wf Hd) as (Hlt & ->). apply Forall_map, Forall_forall.
  intros x Hx. apply In_nth_error in Hx as (t & Ht). destruct wf as (_ & _ & _ & _ & F).
  destruct (F t x Ht) as (_ & _ & Fx & _). specialize (Fx (d + 1) ltac:(lia)).
  replace (d + 1 - 1) with d in Fx by lia. rewrite (nth_error_nth _ _ _ Hc) in Fx. lia.
Qed.
Lemma wf_two o teams : wf_obj o teams -> forall d1 d2 d3 t, d1 < d2 < d3 -> d3 < length (o_caps o) ->
  nth t (nth d1 (o_weights o) []) 0 = 0 \/ nth t (nth d2 (o_weights o) []) 0 = 0 \/ nth t (nth d3 (o_weights o) []) 0 = 0.
Proof.
  intros wf d1 d2 d3 t H12 H3. destruct (Nat.lt_ge_cases t (length teams)) as [Ht|Ht].
  - rewrite !(wf_nth o teams) by (auto; lia). unfold need. set (x := nth t teams (0, 0, 0)).
    destruct (Nat.eqb_spec (d1 + 1) (t_u x)), (Nat.eqb_spec (d1 + 1) (t_v x)), (Nat.eqb_spec (d2 + 1) (t_u x)),
      (Nat.eqb_spec (d2 + 1) (t_v x)), (Nat.eqb_spec (d3 + 1) (t_u x)), (Nat.eqb_spec (d3 + 1) (t_v x)); lia.
  - left. destruct (wf_shape _ _ wf) as [L F]. rewrite Forall_forall in F. apply nth_overflow.
    rewrite F; auto. apply nth_In. lia.
Qed.
Lemma members_pos ty : 1 <= ty <= 5 -> 1 <= fst (members ty).
Proof. intro H. destruct ty as [|[|[|[|[|[|ty]]]]]]; cbn; lia. Qed.
Lemma wf_every o teams : wf_obj o teams ->
  (forall d, 1 <= d <= length (o_caps o) -> exists x, In x teams /\ t_u x = d) ->
  forall d ws, nth_error (o_weights o) d = Some ws -> exists t w, nth_error ws t = Some w /\ w <> 0.
Proof.
  intros wf He d ws Hd. destruct (wf_row _ _ _ _ wf Hd) as (Hlt & ->).
  destruct (He (d + 1) ltac:(lia)) as (x & Hx & Hu). apply In_nth_error in Hx as (t & Ht).
  exists t, (need (d + 1) x). split; [rewrite nth_error_map, Ht; reflexivity|].
  destruct wf as (_ & _ & _ & _ & F). destruct (F t x Ht) as ((_ & _ & Hty) & _).
  unfold need. rewrite Hu, Nat.eqb_refl. pose proof (members_pos _ Hty). lia.
Qed.

(** ** Shapes *)
Lemma transpose_inj P (M : list (list Qc)) :
  transpose P (inj M) = inj (map (fun j => map (fun r => nth j r 0%Qc) M) (seq 0 P)).
Proof.
  unfold transpose, inj. rewrite map_map. apply map_ext. intro j. rewrite !map_map. apply map_ext. intro r.
  apply (map_nth Fin).
Qed.
Lemma reshape_shape P T v : length v = P * T -> shape P T (reshape P T v).
Proof.
  intro L. unfold reshape. split; [rewrite map_length, seq_length; auto|]. apply Forall_map, Forall_forall.
  intros i Hi. apply in_seq in Hi. rewrite firstn_length, skipn_length, L. nia.
Qed.
Lemma nth_error_firstn_lt {A} : forall n i (l : list A), i < n -> nth_error (firstn n l) i = nth_error l i.
Proof.
  induction n as [|n IH]; intros i l H; [lia|]. destruct l as [|a l]; [destruct i; reflexivity|].
  destruct i as [|i]; auto. cbn. apply IH. lia.
Qed.
Lemma nth_error_skipn_add {A} : forall n i (l : list A), nth_error (skipn n l) i = nth_error l (n + i).
Proof.
  induction n as [|n IH]; intros i l; auto. destruct l as [|a l]; [destruct i; reflexivity|]. cbn. apply IH.
Qed.
Lemma reshape_nth P T v p t d : length v = P * T -> p < P -> t < T ->
  get2 (reshape P T v) p t = Some (nth (T * p + t) v d).
Proof.
  intros L Hp Ht. unfold get2, get, reshape. rewrite nth_error_map.
  rewrite (nth_error_nth' (seq 0 P) 0) by (rewrite seq_length; auto). rewrite seq_nth by auto. cbn [option_map bind Nat.add].
  rewrite nth_error_firstn_lt by auto. rewrite nth_error_skipn_add. apply nth_error_nth'. nia.
Qed.

(** ** The call *)
Lemma call_ok iters flag (alpha : Qc) thr pp opt caps types (rt : list Qc) (rp : list (list Qc)) P combos :
  1 <= length caps <= 11 -> types <> [] -> Forall (fun ty => 1 <= ty <= 5) types ->
  prune_teams (length caps) = Some combos ->
  (forall b, In b (blocks types combos) -> sensible b -> fits caps 1 b) ->
  nle thr n0 -> (pp = true -> opt = 1 \/ opt = 2) ->
  let teams := teams_of caps (blocks types combos) in
  length rt = length teams -> shape (length teams) P rp ->
  exists o p q (ext intr : list Qc),
    let A := reshape P (length teams) (map Fin intr) in
    let out := zip_with nadd (map Fin ext) (map Fin rt) in
    kc_call iters flag (Fin alpha) thr pp opt caps types (map Fin rt) (inj rp) =
      Some {| a_obj := o; a_pre := p; a_post := q; a_results := map (result_of teams A (p_pairs p) pp) (q_sel q) |} /\
    kc_initialize caps types = Some o /\ o_caps o = caps /\ o_combos o = combos /\ wf_obj o teams /\
    wrapper_kc_mwm iters (length caps) (length teams) P
      (concat (py_team_messages (o_weights o) (map Fin rt))) caps (map Fin rt)
      (concat (transpose P (inj rp))) (concat (o_weights o)) (concat (py_pad (py_nonzero (o_weights o))))
      (map (@length nat) (py_nonzero (o_weights o))) (list_max (map (@length nat) (py_nonzero (o_weights o))))
      flag (Fin alpha) = Some (map Fin ext, map Fin intr) /\
    length ext = length teams /\ length intr = P * length teams /\
    p_pairs p = matching thr A /\
    (forall t, In t (p_sel p) <-> exists q, In (q, t) (p_pairs p)) /\ incr (p_sel p) /\ Forall (fun t => t < length teams) (p_sel p) /\
    incr (q_sel q) /\ incl (q_sel q) (p_sel p) /\ 
    (if pp then
       removals caps teams (if opt =? 1 then removes_1 caps teams (val out) else removes_2 caps teams (val out)) (p_sel p) (q_sel q)
     else q_sel q = p_sel p) /\
    (exists b, kc_final_exceeded o q = Some b /\ (b = false <-> within_capacity caps teams (q_sel q))).
Proof.
  intros HD Hty0 Hty Ep Hfit Hthr Hopt teams Lrt Srp.
  destruct (initialize_ok caps types HD Hty) as (cs & Ep' & Hrange & Hini). rewrite Ep in Ep'. injection Ep' as <-.
  destruct (Hini Hfit) as (o & Eo & Ec & Ecs & wf). fold teams in wf.
  destruct (prune_ok (length caps)) as (cs & Ep' & Pd & _ & _); [lia|]. rewrite Ep in Ep'. injection Ep' as <-.
  assert (Hev : forall d, 1 <= d <= length (o_caps o) -> exists x, In x teams /\ t_u x = d).
  { intros d Hd. rewrite Ec in Hd. destruct types as [|ty types]; [congruence|].
    set (b := (d, d, ty) : team). assert (Hb : In b (blocks (ty :: types) combos)).
    { apply in_blocks. split; [apply Pd; auto|cbn; auto]. }
    exists b. split; [|reflexivity]. apply in_flat_map. exists b. split; auto.
    assert (Hs : sensible b) by (left; reflexivity).
    pose proof (team_count_pos caps b (count_fn caps b) (count_ok caps b (Hrange b Hb)) Hs (Hfit b Hb Hs)) as Hc.
    destruct (count_fn caps b); [lia|cbn; auto]. }
  assert (Rq : exists R, transpose P (inj rp) = inj R /\ shape P (length teams) R).
  { eexists. split; [apply transpose_inj|]. destruct Srp as [L _]. split; [rewrite map_length, seq_length; auto|].
    apply Forall_map, Forall_forall. intros; rewrite map_length; auto. }
  destruct Rq as (R & ER & SR).
  assert (LT : 1 <= length teams).
  { destruct (Hev 1) as (x & Hx & _); [rewrite Ec; lia|]. destruct teams; [destruct Hx|cbn; lia]. }
  destruct (C14_kc_mwm_safe iters (length teams) (length caps) P (o_weights o) R rt caps flag alpha) as (ext & intr & Ew & Lx & Li); auto.
  { rewrite <- Ec. apply wf_shape; auto. }
  { eapply wf_every; eauto. }
  { intros d ws cap. rewrite <- Ec. eapply wf_fits; eauto. }
  { intros d1 d2 d3 t H12 H3. rewrite <- Ec in H3. eapply wf_two; eauto. }
  cbn zeta in Ew. set (A := reshape P (length teams) (map Fin intr)).
  set (out := zip_with nadd (map Fin ext) (map Fin rt)).
  assert (SA : shape P (length teams) A) by (apply reshape_shape; rewrite map_length; auto).
  assert (Lo : length out = length teams).
  { unfold out. rewrite zip_with_length, !map_length. lia. }
  assert (No : Forall notnan out).
  { unfold out. clear -Lx Lrt. revert rt Lrt. generalize dependent (length teams). 
    induction ext as [|x ext IH]; intros n Lx rt Lrt; [constructor|]. destruct rt as [|r rt]; [constructor|].
    cbn. constructor; [discriminate|]. destruct n; [discriminate|]. eapply IH; cbn in *; eauto; lia. }
  destruct (pre_ok o teams wf thr P A SA) as (p & Epr & Hpp & HL & Hsel & Hx & Hent). rewrite Ec in *.
  assert (low : forall c, In c (p_pairs p) -> exists x, get2 A (fst c) (snd c) = Some x /\ nlt x (zn 1000000000) = true).
  { intros [c1 c2] Hc. rewrite Hpp in Hc. apply in_matching in Hc; auto. destruct Hc as (v & Ev & Lv).
    exists v. split; auto. apply nlt_true in Lv. destruct (nlt v (zn 1000000000)) eqn:Eb; auto. exfalso.
    apply nlt_false in Eb; [|eapply nle_notnan_l; eauto|discriminate].
    pose proof (nle_trans _ _ _ Eb (nle_trans _ _ _ Lv Hthr)) as H. apply nle_Fin in H. revert H. vm_compute. auto. }
  assert (Hic : forall e, In e (p_entries p) -> exists c, ic_choose A e = Some c).
  { intros e He. eexists. apply (entry_ok A p low Hent e He). }
  destruct (post_ok o teams wf pp opt A out p Lo No Hopt HL) as (q & Eq & Hi & Hincl & Hlocs & Hq); auto.
  { rewrite Ec. auto. }
  assert (Fq : Forall (fun t => t < length teams) (q_sel q)).
  { apply Forall_forall. intros t Ht. pose proof (li_lt _ _ _ HL) as F. rewrite Forall_forall in F. apply F, Hincl, Ht. }
  destruct (final_ok o teams wf q Fq) as (b & Eb & Hb).
  exists o, p, q, ext, intr. cbn zeta. fold A. fold out.
  assert (Eres : kc_results o pp p q = Some (map (result_of teams A (p_pairs p) pp) (q_sel q))).
  { apply (results_ok o teams wf A p low Hent); auto. intros ->. apply Hq. }
  split.
  { unfold kc_call. rewrite Eo. cbn [bind]. destruct Srp as [Ls Fs].
    destruct rp as [|r0 rp]; [cbn in Ls; lia|]. cbn [inj map get nth_error bind]. change (map Fin r0 :: map (map Fin) rp) with (inj (r0 :: rp)).
    assert (EP : length (map Fin r0) = P) by (rewrite map_length; inversion Fs; auto).
    unfold get. cbn [inj map nth_error bind]. rewrite EP. destruct wf as (ET & wf'). rewrite ET.
    change (map Fin r0 :: map (map Fin) rp) with (inj (r0 :: rp)).
    replace (length (inj (r0 :: rp))) with (length teams) by (unfold inj; rewrite map_length; auto). rewrite Nat.eqb_refl.
    replace (forallb (fun r => length r =? P) (inj (r0 :: rp))) with true.
    2:{ symmetry. apply forallb_forall. intros r Hr. unfold inj in Hr. apply in_map_iff in Hr as (r' & <- & Hr).
        rewrite map_length. apply Nat.eqb_eq. rewrite Forall_forall in Fs. auto. }
    rewrite map_length, Lrt, Nat.eqb_refl. cbn [andb]. rewrite ER, Ew. cbn [bind]. fold A. fold out.
    rewrite Epr. cbn [bind]. rewrite Eq. cbn [bind]. rewrite Eres. reflexivity. }
  rewrite Ec in *. split; auto. split; auto. split; auto. split; auto. split; [rewrite ER; auto|].
  split; auto. split; auto. split; auto. split; auto. split; [apply (li_incr _ _ _ HL)|]. split; [apply (li_lt _ _ _ HL)|].
  split; auto. split; auto. split; [|eauto].
  destruct pp; apply Hq.
Qed.
