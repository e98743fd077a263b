(** * Property C76: what a KC-MWM call reports is a feasible selection, and the printed totals are its value. *)
From Coq Require Import Permutation.
From Verif Require Import Num NumFacts Arr ArrFacts Spec SpecRun SpecGraph SpecCover MinSum MinSumFacts.
From Verif Require Import M_InOut P_InOut T_InOut M_Runs P_Runs T_Schedule P_Ksat P_PyRef_Ksat T_PyRef_Run.
From Verif Require Import P_Assign P_Tsp_Assign P_Ksat_Limit P_Kc_Dual P_Kc_Messages P_Kc_Best T_Tsp_Assign.
From Verif Require Import M_Tsp_Run M_Ksat_Py M_Tsp_Post P_Ksat_Py M_Kc_Py SpecKc P_Kc_Gen P_Kc_Post P_Kc_Results P_Kc_Call T_Kc_Py.
From Verif Require Import T_Kc_Best M_Kc_Summary SpecSelection.
Local Open Scope nat_scope.

(** ** One team per project *)

Lemma no_two_teams (m : list Qc) x y dx dy : x < length m -> y < length m -> x <> y ->
  minsum_message at_most_one m x (Fin dx) -> minsum_message at_most_one m y (Fin dy) ->
  (nth x m 0 + dx < 0 -> nth y m 0 + dy < 0 -> False)%Qc.
Proof.
  intros Hx Hy N Mx My Lx Ly.
  assert (Em : m = map (fun i => nth i m 0%Qc) (seq 0 (length m))).
  { clear. induction m as [|a m IH]; cbn; auto. f_equal. rewrite <- seq_shift, map_map. exact IH. }
  assert (S : forall i, i < length m -> nth_error (seq 0 (length m)) i = Some i).
  { intros i Hi. rewrite (nth_error_nth' _ 0) by (rewrite seq_length; auto). now rewrite seq_nth. }
  rewrite Em in Mx, My.
  destruct (project_facts _ _ x x dx (seq_NoDup _ _) (S x Hx) Mx) as (_ & Fx & _).
  destruct (project_facts _ _ y y dy (seq_NoDup _ _) (S y Hy) My) as (_ & Fy & _).
  specialize (Fx y ltac:(apply in_seq; lia) ltac:(auto)). specialize (Fy x ltac:(apply in_seq; lia) ltac:(auto)).
  cbn beta in Fx, Fy. qlra.
Qed.
Lemma nodup_fst (l : list (nat * nat)) : NoDup l -> (forall a b c, In (a, b) l -> In (a, c) l -> b = c) -> NoDup (map fst l).
Proof.
  induction 1 as [|[a b] l Hx N IH]; intro H; [constructor|]. cbn. constructor.
  - intro I. apply in_map_iff in I as ([a' c] & E & I). cbn in E. subst a'. apply Hx. rewrite (H a b c); cbn; auto.
  - apply IH. intros a' b' c' I1 I2. apply (H a'); cbn; auto.
Qed.

Section Call.
Variables (iters : nat) (flag : bool) (alpha : Qc) (thr : num) (pp : bool) (opt : nat) (caps types : list nat)
  (rt : list Qc) (rp : list (list Qc)) (P : nat) (o : kc_obj) (teams : list team).
Hypothesis (Ht : Forall (fun ty => 1 <= ty <= 5) types) (Hne : types <> [])
  (E : kc_initialize caps types = Some o) (Hroom : room caps types (o_combos o)) (Hg : generated caps types (o_combos o) teams)
  (Hthr : nle thr n0) (Hopt : pp = true -> opt = 1 \/ opt = 2) (Lr : length rt = length teams) (Sr : shape (length teams) P rp).
Let T := length teams.
Let R := transpose P (inj rp).

Lemma get_R p t : p < P -> t < T -> get2 R p t = Some (Fin (qat rp t p)).
Proof.
  intros Hp Hq. destruct Sr as [L F]. unfold R, transpose, get2, get, inj, qat. rewrite nth_error_map, (nth_error_nth' _ 0) by (rewrite seq_length; auto).
  rewrite seq_nth by auto. cbn [option_map bind Nat.add]. rewrite map_map, nth_error_map.
  rewrite (nth_error_nth' rp []) by (rewrite L; auto). cbn [option_map]. now rewrite map_nth with (f := Fin) (d := 0%Qc).
Qed.

Definition value_sum (l : list nat) : Qc := qsum (map (fun t => nth t rt 0%Qc) l).
Definition weight_sum (l : list (nat * nat)) : Qc := qsum (map (fun e => qat rp (snd e) (fst e)) l).

Lemma total_value_ok l : Forall (fun t => t < T) l -> total_value (map Fin rt) l = Some (Fin (value_sum l)).
Proof.
  intro F. unfold total_value. change n0 with (Fin 0). replace (value_sum l) with (0 + value_sum l)%Qc by ring. generalize 0%Qc.
  induction F as [|t l Hq F IH]; intro a; cbn [foldM].
  - f_equal. f_equal. unfold value_sum, qsum. cbn [map fold_right]. ring.
  - unfold get at 1. rewrite nth_error_map, (nth_error_nth' rt 0%Qc) by (rewrite Lr; auto). cbn [option_map bind nadd].
    rewrite IH. f_equal. f_equal. unfold value_sum, qsum. cbn [map fold_right]. ring.
Qed.
Lemma pre_weight_ok l : Forall (fun e => fst e < P /\ snd e < T) l -> pre_weight R l = Some (Fin (weight_sum l)).
Proof.
  intro F. unfold pre_weight. change n0 with (Fin 0). replace (weight_sum l) with (0 + weight_sum l)%Qc by ring. generalize 0%Qc.
  induction F as [|e l [H1 H2] F IH]; intro a; cbn [foldM].
  - f_equal. f_equal. unfold weight_sum, qsum. cbn [map fold_right]. ring.
  - rewrite get_R by auto. cbn [bind nadd]. rewrite IH. f_equal. f_equal. unfold weight_sum, qsum. cbn [map fold_right]. ring.
Qed.

(** the pair counted after post-processing *)
Definition counted (A : list (list num)) (pairs : list (nat * nat)) (t : nat) : nat * nat :=
  match uses pairs t with
  | c1 :: c2 :: _ => if pp then lower_use A c1 c2 else c1
  | c1 :: _ => c1
  | [] => (0, t)
  end.

Lemma parts : exists p q res (ext intr : list Qc),
  let A := reshape P T (map Fin intr) in
  kc_call iters flag (Fin alpha) thr pp opt caps types (map Fin rt) (inj rp) =
    Some {| a_obj := o; a_pre := p; a_post := q; a_results := res |} /\
  length intr = P * T /\
  wrapper_kc_mwm iters (length caps) T P
    (concat (py_team_messages (o_weights o) (map Fin rt))) caps (map Fin rt)
    (concat R) (concat (o_weights o)) (concat (py_pad (py_nonzero (o_weights o))))
    (map (@length nat) (py_nonzero (o_weights o))) (list_max (map (@length nat) (py_nonzero (o_weights o))))
    flag (Fin alpha) = Some (map Fin ext, map Fin intr) /\
  p_pairs p = matching thr A /\
  (forall t, In t (p_sel p) <-> exists q, In (q, t) (p_pairs p)) /\ NoDup (p_sel p) /\
  NoDup (q_sel q) /\ incl (q_sel q) (p_sel p) /\ (pp = false -> q_sel q = p_sel p) /\ (pp = true -> within_capacity caps teams (q_sel q)) /\
  res = map (result_of teams A (p_pairs p) pp) (q_sel q) /\
  (forall t, In t (p_reused p) <-> 2 <= length (uses (p_pairs p) t)) /\
  (forall t c1 c2 rest, pp = true -> uses (p_pairs p) t = c1 :: c2 :: rest -> kept_project (q_ic q) t = Some (fst (lower_use A c1 c2))).
Proof.
  destruct (setup _ _ _ Ht E) as (HD & Ep & Ec & Hr).
  assert (Et : teams = teams_of caps (blocks types (o_combos o))) by (eapply generated_unique; eauto).
  pose proof (call_ok iters flag alpha thr pp opt caps types rt rp P (o_combos o)) as K. rewrite <- Et in K.
  destruct K as (o' & p & q & ext & intr & Ecall & Ei & Eo & Eco & wf & Ew & Lx & Li & Hpp & Hsel & Hi & Hlt & Hiq & Hincl & Hq & Hfin); auto.
  rewrite E in Ei. injection Ei as <-. cbn zeta in Ecall. fold T in Ecall, Ew, Lx, Li, Hpp, Hlt.
  exists p, q, (map (result_of teams (reshape P T (map Fin intr)) (p_pairs p) pp) (q_sel q)), ext, intr. cbn zeta.
  set (A := reshape P T (map Fin intr)) in *. split; [exact Ecall|]. split; auto. split; auto. split; auto. split; auto.
  split; [now apply incr_NoDup|]. split; [now apply incr_NoDup|]. split; auto. split; [intros X; rewrite X in Hq; auto|].
  split; [intros X; rewrite X in Hq; apply (removals_facts _ _ _ _ _ Hq)|].
  split; [reflexivity|].
  assert (SA : shape P T A) by (apply reshape_shape; rewrite map_length; auto).
  destruct (pre_ok o teams wf thr P A SA) as (p' & Epr & Hpp' & HL & Hsel' & Hx & Hent).
  assert (Hdec : exists out, kc_pre_analysis o thr A = Some p /\ kc_post_analysis o pp opt A out p = Some q).
  { revert Ecall. unfold kc_call. rewrite E. cbn [bind]. destruct (get (inj rp) 0) as [r0|] eqn:E0; [|discriminate]. cbn [bind].
    assert (EP : length r0 = P).
    { unfold get, inj in E0. rewrite nth_error_map in E0. destruct (nth_error rp 0) as [r|] eqn:E1; [|discriminate]. injection E0 as <-.
      rewrite map_length. destruct Sr as [_ F]. rewrite Forall_forall in F. apply F. eapply nth_error_In; eauto. }
    rewrite EP. destruct wf as (ET & wf'). rewrite ET. fold T.
    destruct (_ && _ && _); [|discriminate]. fold R. fold R in Ew. rewrite Ew. cbn [bind]. fold A. rewrite Epr. cbn [bind].
    set (out := zip_with nadd _ _). destruct (kc_post_analysis o pp opt A out p') as [q'|] eqn:Eq; [|discriminate]. cbn [bind].
    destruct (kc_results o pp p' q'); [|discriminate]. cbn [bind]. intros [= -> -> _]. exists out. auto. }
  destruct Hdec as (out & Epr' & Eq). rewrite Epr in Epr'. injection Epr' as ->.
  split; [intro t; apply Hent|]. intros t c1 c2 rest Epp Eu.
  assert (low : forall c, In c (p_pairs p) -> exists x, get2 A (fst c) (snd c) = Some x /\ nlt x (zn 1000000000) = true).
  { intros [k1 k2] Hc. rewrite Hpp in Hc. apply in_matching in Hc; auto. destruct Hc as (v & Ev & Lv).
    exists v. split; auto. apply nlt_true in Lv. destruct (nlt v (zn 1000000000)) eqn:Eb; auto. exfalso.
    apply nlt_false in Eb; [|eapply nle_notnan_l; eauto|discriminate].
    pose proof (nle_trans _ _ _ Eb (nle_trans _ _ _ Lv Hthr)) as H. apply nle_Fin in H. revert H. vm_compute. auto. }
  assert (Eic : mapM (ic_choose A) (p_entries p) = Some (q_ic q)).
  { revert Eq. unfold kc_post_analysis. rewrite Epp. destruct (match opt with 1 => _ | 2 => _ | _ => _ end); [|discriminate]. cbn [bind].
    destruct (mapM (ic_choose A) (p_entries p)); [|discriminate]. cbn [bind]. destruct (if p_exceeded p then _ else _); [|discriminate].
    cbn [bind]. intros [= <-]. reflexivity. }
  rewrite (ic_all A p low Hent) in Eic. injection Eic as <-. eapply kept_ok; eauto.
Qed.

Lemma pairs_fst (ext intr : list Qc) :
  wrapper_kc_mwm iters (length caps) T P
    (concat (py_team_messages (o_weights o) (map Fin rt))) caps (map Fin rt)
    (concat R) (concat (o_weights o)) (concat (py_pad (py_nonzero (o_weights o))))
    (map (@length nat) (py_nonzero (o_weights o))) (list_max (map (@length nat) (py_nonzero (o_weights o))))
    flag (Fin alpha) = Some (map Fin ext, map Fin intr) -> length intr = P * T ->
  NoDup (map fst (matching thr (reshape P T (map Fin intr)))).
Proof.
  intros Ew Li. apply nodup_fst; [apply matching_nodup|]. intros p x y Ix Iy.
  destruct (call_instance _ _ _ _ _ _ _ Ht Hne E Hroom Hg Lr Sr) as (Inst & _).
  destruct Inst as (I1 & I2 & I3 & I4 & I5 & I6 & I7).
  destruct (C50_kc_run iters T (length caps) P (o_weights o) (columns P rp) rt caps flag alpha I1 I2 I3 I4 I5 I6 I7) as
    (ext' & intr' & K & EO & Dm & X & TO & CE & EP & PE & OT & Ew' & _ & Li' & _ & _ & HEP & Hit & _ & Hres).
  unfold columns in Ew'. rewrite <- transpose_inj in Ew'. fold R in Ew'. cbn zeta in Ew'. rewrite Ew in Ew'. injection Ew' as E1 E2.
  apply fin_inj in E2. subst intr'.
  assert (SA : shape P T (reshape P T (map Fin intr))) by (apply reshape_shape; rewrite map_length; auto).
  destruct (matching_range _ _ _ _ _ _ SA Ix) as [Hp Hx]. destruct (matching_range _ _ _ _ _ _ SA Iy) as [_ Hy].
  assert (neg : forall z, z < T -> In (p, z) (matching thr (reshape P T (map Fin intr))) -> (nth (p * T + z) intr 0 < 0)%Qc).
  { intros z Hz I. apply in_matching in I as (v & Ev & Lv); auto. rewrite (reshape_nth _ _ _ _ _ (Fin 0%Qc)) in Ev by (auto; rewrite map_length; auto).
    rewrite map_nth in Ev. injection Ev as <-. rewrite (Nat.mul_comm p T).
    destruct thr as [h| | |]; cbn in Lv, Hthr; try contradiction; try discriminate.
    apply qltb_true in Lv. change (h <= 0)%Qc in Hthr. qlra. }
  pose proof (neg x Hx Ix) as Nx. pose proof (neg y Hy Iy) as Ny. rewrite Hres in Nx, Ny by auto.
  destruct (Nat.eqb_spec iters 0); [exfalso; now apply (Qclt_not_eq _ _ Nx)|].
  destruct (Nat.eq_dec x y) as [|N]; auto. exfalso.
  destruct (Hit (iters - 1)) as (_ & _ & _ & Hm & _). destruct (Hm p x Hp Hx) as (_ & Ex & Mx & _). destruct (Hm p y Hp Hy) as (_ & Ey & My & _).
  assert (Lrow : length (nth p (EP (iters - 1)) []) = T) by (apply (P_Equality.shape_nth P); auto).
  eapply (no_two_teams _ x y); [rewrite Lrow; auto|rewrite Lrow; auto|exact N|exact Mx|exact My| |];
    [change (nth x (nth p (EP (iters - 1)) []) 0%Qc) with (qat (EP (iters - 1)) p x); rewrite Ex|
     change (nth y (nth p (EP (iters - 1)) []) 0%Qc) with (qat (EP (iters - 1)) p y); rewrite Ey]; qlra.
Qed.

(** ** Totals *)
Lemma in_uses_iff (pairs : list (nat * nat)) t c : In c (uses pairs t) <-> In c pairs /\ snd c = t.
Proof. unfold uses. rewrite filter_In, Nat.eqb_eq. tauto. Qed.
Lemma counted_in A pairs p t : In (p, t) pairs -> In (counted A pairs t) pairs /\ snd (counted A pairs t) = t.
Proof.
  clear. intro I. rewrite <- in_uses_iff. unfold counted. assert (I' : In (p, t) (uses pairs t)) by now apply in_uses_iff.
  destruct (uses pairs t) as [|c1 [|c2 l]]; [destruct I'|cbn; auto|]. destruct pp; [|cbn; auto].
  unfold lower_use. destruct (nlt _ _); cbn; auto.
Qed.

Section Weight.
Variables (A : list (list num)) (p : kc_pre) (q : kc_post).
Hypothesis range : Forall (fun e => fst e < P /\ snd e < T) (p_pairs p).
Hypothesis reused : forall t, In t (p_reused p) <-> 2 <= length (uses (p_pairs p) t).
Hypothesis kept : forall t c1 c2 rest, pp = true -> uses (p_pairs p) t = c1 :: c2 :: rest -> kept_project (q_ic q) t = Some (fst (lower_use A c1 c2)).
Lemma post_weight_ok l : forall pre a seen, p_pairs p = pre ++ l -> NoDup seen ->
  (forall t, In t (q_sel q) -> In t (map snd pre) -> In t seen) ->
  exists new, foldM (post_weight_step pp R p q) l (Fin a, seen) = Some (Fin (a + weight_sum (map (counted A (p_pairs p)) new)), seen ++ new) /\
    NoDup (seen ++ new) /\ (forall t, In t new <-> In t (q_sel q) /\ In t (map snd l) /\ ~ In t seen).
Proof.
  clear - Sr range reused kept. induction l as [|c l IH]; intros pre a seen Ep Hn Hs.
  - exists []. rewrite app_nil_r. cbn [foldM map]. split; [unfold weight_sum, qsum; cbn; f_equal; f_equal; f_equal; ring|].
    split; auto. cbn. tauto.
  - assert (Ic : In c (p_pairs p)) by (rewrite Ep; apply in_elt).
    assert (Ic' : In c (uses (p_pairs p) (snd c))) by now apply in_uses_iff.
    assert (Ep' : p_pairs p = (pre ++ [c]) ++ l) by (rewrite <- app_assoc; exact Ep).
    set (r := if mem (snd c) (p_reused p) && pp then fst (counted A (p_pairs p) (snd c)) else fst c).
    assert (Er : (if mem (snd c) (p_reused p) && pp then kept_project (q_ic q) (snd c) else Some (fst c)) = Some r).
    { unfold r. destruct (mem (snd c) (p_reused p)) eqn:Em; cbn [andb]; auto. destruct pp eqn:Epp; auto.
      apply mem_In, reused in Em. unfold counted. rewrite Epp. destruct (uses (p_pairs p) (snd c)) as [|c1 [|c2 rest]] eqn:Eu; cbn in Em; try lia.
      eapply kept; eauto. }
    cbn [foldM]. unfold post_weight_step at 1. rewrite Er. cbn [bind].
    destruct (mem (snd c) (q_sel q)) eqn:Eq; cbn [andb]; [destruct (mem (snd c) seen) eqn:Es; cbn [negb]|].
    + cbn [bind]. apply mem_In in Es. destruct (IH (pre ++ [c]) a seen) as (new & -> & N & Hi); auto.
      { intros t Hq. rewrite map_app, in_app_iff. intros [I|[<-|[]]]; auto. }
      exists new. split; auto. split; auto. intro t. rewrite Hi. cbn [map In]. split; [tauto|]. intros (X & [<-|Y] & Z); tauto.
    + apply mem_not_In in Es. apply mem_In in Eq.
      assert (Ek : counted A (p_pairs p) (snd c) = (r, snd c)).
      { destruct c as [c0 t]. cbn [fst snd] in *. destruct (counted_in A _ _ _ Ic) as [_ Hsn].
        unfold r. destruct (mem t (p_reused p)) eqn:Em; cbn [andb].
        - destruct pp eqn:Epp; [destruct (counted A (p_pairs p) t); cbn in Hsn |- *; now subst|].
          unfold counted. rewrite Epp. assert (Eu : uses (p_pairs p) t = (c0, t) :: uses l t).
          { rewrite Ep, uses_app. replace (uses pre t) with (@nil (nat * nat)).
            - unfold uses. cbn. now rewrite Nat.eqb_refl.
            - symmetry. destruct (uses pre t) as [|d ds] eqn:Ed; auto. exfalso. apply Es, Hs; auto.
              assert (I : In d (uses pre t)) by (rewrite Ed; now left). apply in_uses_iff in I as [I <-]. now apply in_map. }
          rewrite Eu. destruct (uses l t); auto.
        - apply mem_not_In in Em. rewrite reused in Em. unfold counted.
          destruct (uses (p_pairs p) t) as [|c1 [|c2 rest]] eqn:Eu; [destruct Ic'| |cbn in Em; lia].
          destruct Ic' as [->|[]]; auto. }
      assert (Hrt : r < P /\ snd c < T).
      { destruct (counted_in A (p_pairs p) (fst c) (snd c)) as [I _]; [now rewrite <- surjective_pairing|]. rewrite Ek in I.
        rewrite Forall_forall in range. apply (range _ I). }
      rewrite get_R by tauto. cbn [bind nadd].
      destruct (IH (pre ++ [c]) (a + qat rp (snd c) r)%Qc (seen ++ [snd c])) as (new & -> & N & Hi); auto.
      { apply nodup_two; auto; [repeat constructor; cbn; tauto|]. intros x I [<-|[]]; auto. }
      { intros t Hq. rewrite map_app, !in_app_iff. intros [I|[<-|[]]]; cbn; auto. }
      exists (snd c :: new). rewrite <- app_assoc in N |- *. cbn [app] in *. split.
      { f_equal. f_equal. f_equal. cbn [map]. rewrite Ek. unfold weight_sum, qsum. cbn [map fold_right fst snd]. ring. }
      split; auto. intro t. cbn [In map]. rewrite Hi, in_app_iff. cbn [In].
      apply NoDup_remove_2 in N. rewrite in_app_iff in N. destruct (Nat.eq_dec (snd c) t) as [<-|Nt]; tauto.
    + cbn [bind]. apply mem_not_In in Eq. destruct (IH (pre ++ [c]) a seen) as (new & -> & N & Hi); auto.
      { intros t Hq. rewrite map_app, in_app_iff. intros [I|[<-|[]]]; auto. tauto. }
      exists new. split; auto. split; auto. intro t. rewrite Hi. cbn [map In]. split; [tauto|]. intros (X & [<-|Y] & Z); tauto.
Qed.
End Weight.
End Call.

(** [z] are the totals of the selection [F]: minus the sum of the values of its teams, the sum of the
    values of its pairs, its size, and whether every one of the [P] projects has a team *)
Definition totals_of (P : nat) (rt : list Qc) (rp : list (list Qc)) (F : list (nat * nat)) (z : kc_totals) : Prop :=
  z_value z = Fin (- qsum (map (fun e => nth (snd e) rt 0) F))%Qc /\
  z_weight z = Fin (qsum (map (fun e => qat rp (snd e) (fst e)) F)) /\
  z_teams z = length F /\ z_matched z = length F /\
  (z_all z = true <-> forall p, p < P -> exists t, In (p, t) F).

Lemma qsum_perm l l' : Permutation l l' -> qsum l = qsum l'.
Proof. unfold qsum. induction 1; cbn [fold_right]; [reflexivity|congruence|ring|congruence]. Qed.
Lemma all_projects P (F : list (nat * nat)) : NoDup (map fst F) -> (forall p t, In (p, t) F -> p < P) ->
  ((length F =? P) = true <-> forall p, p < P -> exists t, In (p, t) F).
Proof.
  intros N Hr. rewrite Nat.eqb_eq. assert (I : incl (map fst F) (seq 0 P)).
  { intros p Hp. apply in_map_iff in Hp as ([p' t] & <- & Hp). apply in_seq. apply Hr in Hp. cbn. lia. }
  split.
  - intros L p Hp. assert (J : incl (seq 0 P) (map fst F)).
    { apply NoDup_length_incl; auto. rewrite seq_length, map_length. lia. }
    assert (Hin : In p (map fst F)) by (apply J, in_seq; lia). apply in_map_iff in Hin as ([p' t] & <- & Hin). exists t. exact Hin.
  - intros H. rewrite <- (map_length fst), <- (seq_length P 0). apply Nat.le_antisymm; apply NoDup_incl_length; auto; [apply seq_NoDup|].
    intros p Hp. apply in_seq in Hp. destruct (H p) as (t & Hin); [lia|]. now apply (in_map fst) in Hin.
Qed.
Lemma totals_perm P rt rp F F' z : Permutation F F' -> totals_of P rt rp F z -> totals_of P rt rp F' z.
Proof.
  intros Pm (H1 & H2 & H3 & H4 & H5). rewrite (qsum_perm _ _ (Permutation_map _ Pm)) in H1. rewrite (qsum_perm _ _ (Permutation_map _ Pm)) in H2.
  rewrite (Permutation_length Pm) in H3, H4. do 4 (split; auto). rewrite H5. split; intros H p Hp; destruct (H p Hp) as (t & I); exists t;
  [apply (Permutation_in _ Pm I)|apply (Permutation_in _ (Permutation_sym Pm) I)].
Qed.

(** matched pairs are listed by increasing project *)
Inductive by_project : list (nat * nat) -> Prop :=
| by_nil : by_project []
| by_cons c l : Forall (fun d => fst c <= fst d) l -> by_project l -> by_project (c :: l).
Lemma by_project_filter f l : by_project l -> by_project (filter f l).
Proof.
  induction 1 as [|c l F B IH]; cbn; [constructor|]. destruct (f c); auto. constructor; auto.
  apply Forall_forall. intros d I. apply filter_In in I as [I _]. rewrite Forall_forall in F. auto.
Qed.
Lemma by_project_app l l' : by_project l -> by_project l' -> (forall c d, In c l -> In d l' -> fst c <= fst d) -> by_project (l ++ l').
Proof.
  induction 1 as [|c l F B IH]; cbn; auto. intros B' H. constructor; [|auto].
  apply Forall_app. split; auto. apply Forall_forall. auto.
Qed.
Lemma by_project_row i k n : by_project (map (pair i) (seq k n)).
Proof.
  revert k. induction n as [|n IH]; intro k; cbn; constructor; auto.
  apply Forall_forall. intros d I. apply in_map_iff in I as (x & <- & _). cbn. lia.
Qed.
Lemma by_project_matching thr A : by_project (matching thr A).
Proof.
  apply by_project_filter. unfold positions. generalize 0 at 2. generalize (length A) as n.
  induction n as [|n IH]; intro k; cbn; [constructor|]. apply by_project_app; auto using by_project_row.
  intros c d Ic Id. apply in_map_iff in Ic as (x & <- & _). cbn. apply in_concat in Id as (l & Hl & Id).
  apply in_map_iff in Hl as (j & <- & Hj). apply in_map_iff in Id as (y & <- & _). apply in_seq in Hj. cbn. lia.
Qed.

(** Everything about the two analyses of one call. *)
Lemma summary_parts iters flag (alpha : Qc) thr pp opt caps types (rt : list Qc) (rp : list (list Qc)) P o teams :
    Forall (fun ty => 1 <= ty <= 5) types -> types <> [] ->
    kc_initialize caps types = Some o -> room caps types (o_combos o) -> generated caps types (o_combos o) teams ->
    nle thr n0 -> (pp = true -> opt = 1 \/ opt = 2) ->
    length rt = length teams -> shape (length teams) P rp ->
    exists a z0 unmatched twice z F,
      (kc_call iters flag (Fin alpha) thr pp opt caps types (map Fin rt) (inj rp) = Some a /\
      kc_pre_totals P (map Fin rt) (transpose P (inj rp)) (a_pre a) = Some (z0, unmatched, twice) /\
      kc_post_totals pp P (map Fin rt) (transpose P (inj rp)) (a_pre a) (a_post a) = Some z /\
      (* pairs *)
      NoDup (map fst (p_pairs (a_pre a))) /\
      (forall p t, In (p, t) (p_pairs (a_pre a)) -> p < P /\ t < length teams) /\
      NoDup (p_sel (a_pre a)) /\
      (forall t, In t (p_sel (a_pre a)) <-> exists p, In (p, t) (p_pairs (a_pre a))) /\
      (* before *)
      z_value z0 = Fin (- qsum (map (fun t => nth t rt 0) (p_sel (a_pre a))))%Qc /\
      z_weight z0 = Fin (qsum (map (fun e => qat rp (snd e) (fst e)) (p_pairs (a_pre a)))) /\
      z_teams z0 = length (p_sel (a_pre a)) /\ z_matched z0 = length (p_pairs (a_pre a)) /\
      z_matched z0 + unmatched = P /\
      (z_all z0 = true <-> forall p, p < P -> exists t, In (p, t) (p_pairs (a_pre a))) /\
      (twice = true <-> exists p p' t, p <> p' /\ In (p, t) (p_pairs (a_pre a)) /\ In (p', t) (p_pairs (a_pre a))) /\
      (* after *)
      totals_of P rt rp F z /\
      map snd F = q_sel (a_post a) /\ incl F (p_pairs (a_pre a)) /\ NoDup (map fst F) /\ NoDup (map snd F) /\
      (pp = true -> selection (length teams) (length caps) P (o_weights o) caps F /\
         a_results a = map (fun e =>
           {| r_u := u_of teams (snd e); r_v := v_of teams (snd e); r_type := t_type (nth (snd e) teams (0, 0, 0));
              r_teams := [snd e + 1]; r_projects := [fst e + 1] |}) F) /\
      (pp = false -> q_sel (a_post a) = p_sel (a_pre a) /\
         forall p p' t, In (p, t) F -> In (p', t) (p_pairs (a_pre a)) -> p <= p')) /\
      (* the pairs of [F] *)
      exists A, F = map (counted pp A (p_pairs (a_pre a))) (q_sel (a_post a)) /\
        (forall t, In t (p_reused (a_pre a)) <-> 2 <= length (uses (p_pairs (a_pre a)) t)) /\
        (forall t c1 c2 rest, pp = true -> uses (p_pairs (a_pre a)) t = c1 :: c2 :: rest ->
           kept_project (q_ic (a_post a)) t = Some (fst (lower_use A c1 c2))).
Proof.
  intros Ht Hne E Hroom Hg Hthr Hopt Lr Sr.
  destruct (parts iters flag alpha thr pp opt caps types rt rp P o teams Ht Hne E Hroom Hg Hthr Hopt Lr Sr) as
    (p & q & res & ext & intr & Ecall & Li & Ew & Hpp & Hsel & Nsel & Nq & Hincl & Hpf & Hpt & Hres & Hre & Hk).
  cbn zeta in *. set (A := reshape P (length teams) (map Fin intr)) in *.
  pose proof (pairs_fst iters flag alpha thr caps types rt rp P o teams Ht Hne E Hroom Hg Hthr Lr Sr ext intr Ew Li) as NF. fold A in NF. rewrite <- Hpp in NF.
  assert (SA : shape P (length teams) A) by (apply reshape_shape; rewrite map_length; auto).
  assert (Hrng : forall r t, In (r, t) (p_pairs p) -> r < P /\ t < length teams).
  { intros r t I. rewrite Hpp in I. eapply matching_range; eauto. }
  assert (Frng : Forall (fun e => fst e < P /\ snd e < length teams) (p_pairs p)).
  { apply Forall_forall. intros [r t] I. cbn. auto. }
  assert (Fsel : Forall (fun t => t < length teams) (p_sel p)).
  { apply Forall_forall. intros t I. apply Hsel in I as (r & I). apply Hrng in I. tauto. }
  assert (Fq : Forall (fun t => t < length teams) (q_sel q)).
  { apply Forall_forall. intros t I. rewrite Forall_forall in Fsel. auto. }
  set (pick := counted pp A (p_pairs p)). set (F := map pick (q_sel q)).
  assert (Hpick : forall t, In t (q_sel q) -> In (pick t) (p_pairs p) /\ snd (pick t) = t).
  { intros t I. apply Hincl, Hsel in I as (r & I). eapply counted_in; eauto. }
  assert (ES : map snd F = q_sel q).
  { unfold F. rewrite map_map. rewrite <- (map_id (q_sel q)) at 2. apply map_ext_in. intros t I. apply Hpick, I. }
  assert (IF : incl F (p_pairs p)).
  { intros c I. apply in_map_iff in I as (t & <- & I). apply Hpick, I. }
  assert (NFf : NoDup (map fst F)).
  { apply nodup_fst; [apply NoDup_map_inv with (f := snd); rewrite ES; auto|]. intros r t t' I I'.
    apply IF in I, I'. pose proof (filter_nodup _ _ NF I) as X. pose proof (filter_nodup _ _ NF I') as Y. cbn in X, Y. congruence. }
  destruct (post_weight_ok pp rp P teams Sr A p q Frng Hre Hk (p_pairs p) [] 0%Qc []) as (new & Ef & Nn & Hnew); auto.
  { constructor. }
  cbn [app] in Ef, Nn.
  assert (Pnew : Permutation new (q_sel q)).
  { apply NoDup_Permutation; auto. intro t. rewrite Hnew. split; [tauto|]. intro I. split; auto. split; [|auto].
    apply Hincl, Hsel in I as (r & I). now apply (in_map snd) in I. }
  exists {| a_obj := o; a_pre := p; a_post := q; a_results := res |}. cbn [a_pre a_post a_results].
  do 3 eexists. eexists. exists F. split; cycle 1.
  { exists A. auto. }
  split; [exact Ecall|]. split.
  { unfold kc_pre_totals. rewrite (total_value_ok rt teams Lr _ Fsel). cbn [bind]. rewrite (pre_weight_ok rp P teams Sr _ Frng). cbn [bind nopp]. reflexivity. }
  split.
  { unfold kc_post_totals. rewrite (total_value_ok rt teams Lr _ Fq). cbn [bind]. unfold n0. fold n0. change n0 with (Fin 0%Qc). rewrite Ef. cbn [bind nopp]. reflexivity. }
  cbn [z_value z_weight z_teams z_matched z_all].
  split; [exact NF|]. split; [exact Hrng|]. split; [exact Nsel|]. split; [exact Hsel|]. split; [reflexivity|]. split; [reflexivity|]. split; [reflexivity|]. split; [reflexivity|].
  split.
  { rewrite <- (map_length fst). assert (G : forall l : list nat, NoDup l -> incl l (seq 0 P) -> length l + length (filter (fun r => negb (mem r l)) (seq 0 P)) = P).
    { intros l Nl Il. rewrite <- app_length. rewrite <- (seq_length P 0) at 2. apply Permutation_length, NoDup_Permutation.
      - apply nodup_two; auto; [apply NoDup_filter, seq_NoDup|]. intros x I J. apply filter_In in J as [_ J]. apply negb_true_iff, mem_not_In in J. auto.
      - apply seq_NoDup.
      - intro x. rewrite in_app_iff, filter_In, negb_true_iff, mem_not_In. split; [intros [I|[I _]]; auto|].
        intro I. destruct (in_dec Nat.eq_dec x l); auto. }
    apply G; auto. intros r I. apply in_map_iff in I as ([r' t] & <- & I). apply in_seq. apply Hrng in I. cbn. lia. }
  split; [apply all_projects; auto; intros r t I; apply Hrng in I; tauto|].
  split.
  { assert (N1 : NoDup (p_pairs p)) by (eapply NoDup_map_inv; exact NF). split.
    - destruct (p_reused p) as [|t l] eqn:Er; [discriminate|]. intros _. assert (I : In t (p_reused p)) by (rewrite Er; now left).
      rewrite <- Er in *. apply Hre in I. destruct (uses (p_pairs p) t) as [|[r1 t1] [|[r2 t2] us]] eqn:Eu; cbn in I; try lia.
      assert (I1 : In (r1, t1) (uses (p_pairs p) t)) by (rewrite Eu; cbn; auto). assert (I2 : In (r2, t2) (uses (p_pairs p) t)) by (rewrite Eu; cbn; auto).
      apply in_uses_iff in I1 as [I1 X1], I2 as [I2 X2]. cbn in X1, X2. subst t1 t2. exists r1, r2, t. split; auto. intros ->.
      assert (N2 : NoDup (uses (p_pairs p) t)) by now apply NoDup_filter. rewrite Eu in N2. inversion N2 as [|? ? X]. apply X. now left.
    - intros (r1 & r2 & t & Nr & I1 & I2). assert (I : In t (p_reused p)).
      { apply Hre. assert (J1 : In (r1, t) (uses (p_pairs p) t)) by now apply in_uses_iff. assert (J2 : In (r2, t) (uses (p_pairs p) t)) by now apply in_uses_iff.
        destruct (uses (p_pairs p) t) as [|c1 [|c2 us]]; [destruct J1| |cbn; lia]. destruct J1 as [->|[]], J2 as [[=]|[]]. congruence. }
      destruct (p_reused p); [destruct I|reflexivity]. }
  split.
  { split; [|split; [|split; [|split]]]; cbn [z_value z_weight z_teams z_matched z_all].
    - f_equal. f_equal. unfold value_sum. rewrite <- ES, map_map. reflexivity.
    - f_equal. unfold weight_sum. rewrite Qcplus_0_l. apply qsum_perm, Permutation_map. unfold F. now apply Permutation_map.
    - unfold F. now rewrite map_length.
    - unfold F. now rewrite map_length.
    - replace (length (q_sel q)) with (length F) by (unfold F; apply map_length). apply all_projects; auto. intros r t I. apply IF, Hrng in I. tauto. }
  split; [exact ES|]. split; [exact IF|]. split; [exact NFf|]. split; [rewrite ES; exact Nq|]. split.
  - intros Epp. split.
    + split; [exact NFf|]. split; [rewrite ES; exact Nq|]. split; [intros r t I; apply Hrng, IF, I|].
      intros d Hd. specialize (Hpt Epp (d + 1)). destruct (call_instance _ _ _ _ _ _ _ Ht Hne E Hroom Hg Lr Sr) as (_ & wf & Ec & _).
      unfold used in Hpt. rewrite <- (map_map snd (share (o_weights o) d)), ES.
      replace (map (share (o_weights o) d) (q_sel q)) with (map (fun t => need (d + 1) (nth t teams (0, 0, 0))) (q_sel q)).
      2:{ apply map_ext_in. intros t I. unfold share. symmetry. apply wf_nth; auto; [rewrite Ec; auto|]. rewrite Forall_forall in Fq. auto. }
      replace (d + 1 - 1) with d in Hpt by lia. apply Hpt. lia.
    + rewrite Hres. unfold F. rewrite map_map. apply map_ext_in. intros t I. destruct (Hpick t I) as [Hp Hs]. rewrite Hs.
      unfold result_of. replace (reported A (p_pairs p) pp t) with [pick t]; [cbn; now rewrite Hs|].
      revert Hp. unfold pick, reported, counted. apply Hincl, Hsel in I as (r & I).
      assert (I' : In (r, t) (uses (p_pairs p) t)) by now apply in_uses_iff.
      destruct (uses (p_pairs p) t) as [|c1 [|c2 us]]; [destruct I'|auto|]. rewrite Epp. intro Hp. symmetry. now apply filter_nodup.
  - intros Epp. split; auto. intros r r' t I I'. unfold F in I. apply in_map_iff in I as (t0 & Et & I0). destruct (Hpick t0 I0) as [_ Hs].
    rewrite Et in Hs. cbn in Hs. subst t0. assert (J : In (r', t) (uses (p_pairs p) t)) by now apply in_uses_iff.
    assert (B : by_project (uses (p_pairs p) t)) by (apply by_project_filter; rewrite Hpp; apply by_project_matching).
    unfold pick, counted in Et. destruct (uses (p_pairs p) t) as [|c1 us]; [destruct J|].
    assert (Ec1 : c1 = (r, t)) by (destruct us; [|rewrite Epp in Et]; auto). subst c1. inversion B as [|? ? Fc]; subst.
    destruct J as [[= ->]|J]; [lia|]. rewrite Forall_forall in Fc. apply (Fc _ J).
Qed.
Lemma summary iters flag (alpha : Qc) thr pp opt caps types (rt : list Qc) (rp : list (list Qc)) P o teams :
    Forall (fun ty => 1 <= ty <= 5) types -> types <> [] ->
    kc_initialize caps types = Some o -> room caps types (o_combos o) -> generated caps types (o_combos o) teams ->
    nle thr n0 -> (pp = true -> opt = 1 \/ opt = 2) ->
    length rt = length teams -> shape (length teams) P rp ->
    exists a z0 unmatched twice z F,
      kc_call iters flag (Fin alpha) thr pp opt caps types (map Fin rt) (inj rp) = Some a /\
      kc_pre_totals P (map Fin rt) (transpose P (inj rp)) (a_pre a) = Some (z0, unmatched, twice) /\
      kc_post_totals pp P (map Fin rt) (transpose P (inj rp)) (a_pre a) (a_post a) = Some z /\
      (* pairs *)
      NoDup (map fst (p_pairs (a_pre a))) /\
      (forall p t, In (p, t) (p_pairs (a_pre a)) -> p < P /\ t < length teams) /\
      NoDup (p_sel (a_pre a)) /\
      (forall t, In t (p_sel (a_pre a)) <-> exists p, In (p, t) (p_pairs (a_pre a))) /\
      (* before *)
      z_value z0 = Fin (- qsum (map (fun t => nth t rt 0) (p_sel (a_pre a))))%Qc /\
      z_weight z0 = Fin (qsum (map (fun e => qat rp (snd e) (fst e)) (p_pairs (a_pre a)))) /\
      z_teams z0 = length (p_sel (a_pre a)) /\ z_matched z0 = length (p_pairs (a_pre a)) /\
      z_matched z0 + unmatched = P /\
      (z_all z0 = true <-> forall p, p < P -> exists t, In (p, t) (p_pairs (a_pre a))) /\
      (twice = true <-> exists p p' t, p <> p' /\ In (p, t) (p_pairs (a_pre a)) /\ In (p', t) (p_pairs (a_pre a))) /\
      (* after *)
      totals_of P rt rp F z /\
      map snd F = q_sel (a_post a) /\ incl F (p_pairs (a_pre a)) /\ NoDup (map fst F) /\ NoDup (map snd F) /\
      (pp = true -> selection (length teams) (length caps) P (o_weights o) caps F /\
         a_results a = map (fun e =>
           {| r_u := u_of teams (snd e); r_v := v_of teams (snd e); r_type := t_type (nth (snd e) teams (0, 0, 0));
              r_teams := [snd e + 1]; r_projects := [fst e + 1] |}) F) /\
      (pp = false -> q_sel (a_post a) = p_sel (a_pre a) /\
         forall p p' t, In (p, t) F -> In (p', t) (p_pairs (a_pre a)) -> p <= p').
Proof.
  intros. destruct (summary_parts iters flag alpha thr pp opt caps types rt rp P o teams) as (a & z0 & u & tw & z & F & K & _); auto.
  exists a, z0, u, tw, z, F. exact K.
Qed.

(** ** C76 *)

(** With post-processing on, what a call reports is a feasible solution: there is a selection (every
    team and every project at most once, no department over its capacity) of matched pairs, and the
    reported results are exactly its pairs, one team and one project each. *)
Theorem C76_feasible :
  forall iters flag (alpha : Qc) thr opt caps types (rt : list Qc) (rp : list (list Qc)) P o teams,
    Forall (fun ty => 1 <= ty <= 5) types -> types <> [] ->
    kc_initialize caps types = Some o -> room caps types (o_combos o) -> generated caps types (o_combos o) teams ->
    nle thr n0 -> opt = 1 \/ opt = 2 ->
    length rt = length teams -> shape (length teams) P rp ->
    exists a F,
      kc_call iters flag (Fin alpha) thr true opt caps types (map Fin rt) (inj rp) = Some a /\
      selection (length teams) (length caps) P (o_weights o) caps F /\ incl F (p_pairs (a_pre a)) /\
      map snd F = q_sel (a_post a) /\
      a_results a = map (fun e =>
        {| r_u := u_of teams (snd e); r_v := v_of teams (snd e); r_type := t_type (nth (snd e) teams (0, 0, 0));
           r_teams := [snd e + 1]; r_projects := [fst e + 1] |}) F.
Proof.
  intros iters flag alpha thr opt caps types rt rp P o teams H1 H2 H3 H4 H5 H6 H7 H8 H9.
  destruct (summary iters flag alpha thr true opt caps types rt rp P o teams) as
    (a & z0 & u & tw & z & F & Ea & _ & _ & _ & _ & _ & _ & _ & _ & _ & _ & _ & _ & _ & _ & HS & HI & _ & _ & Hp & _); auto.
  destruct (Hp eq_refl) as [Hsel Hres]. exists a, F. auto.
Qed.

(** The totals printed after post-processing are those of the reported selection; their difference is
    its cost. *)
Theorem C76_totals_after :
  forall iters flag (alpha : Qc) thr opt caps types (rt : list Qc) (rp : list (list Qc)) P o teams,
    Forall (fun ty => 1 <= ty <= 5) types -> types <> [] ->
    kc_initialize caps types = Some o -> room caps types (o_combos o) -> generated caps types (o_combos o) teams ->
    nle thr n0 -> opt = 1 \/ opt = 2 ->
    length rt = length teams -> shape (length teams) P rp ->
    exists a F z,
      kc_call iters flag (Fin alpha) thr true opt caps types (map Fin rt) (inj rp) = Some a /\
      a_results a = map (fun e =>
        {| r_u := u_of teams (snd e); r_v := v_of teams (snd e); r_type := t_type (nth (snd e) teams (0, 0, 0));
           r_teams := [snd e + 1]; r_projects := [fst e + 1] |}) F /\
      kc_post_totals true P (map Fin rt) (transpose P (inj rp)) (a_pre a) (a_post a) = Some z /\
      totals_of P rt rp F z /\
      nsub (z_weight z) (z_value z) = Fin (selection_cost (columns P rp) rt F).
Proof.
  intros iters flag alpha thr opt caps types rt rp P o teams H1 H2 H3 H4 H5 H6 H7 H8 H9.
  destruct (summary iters flag alpha thr true opt caps types rt rp P o teams) as
    (a & z0 & u & tw & z & F & Ea & _ & Ez & _ & Hr & _ & _ & _ & _ & _ & _ & _ & _ & _ & Ht & HS & HI & _ & _ & Hp & _); auto.
  destruct (Hp eq_refl) as [Hsel Hres]. exists a, F, z. do 4 (split; auto).
  destruct Ht as (-> & -> & _). cbn. f_equal. unfold selection_cost.
  assert (HF : forall p t, In (p, t) F -> p < P /\ t < length teams) by (intros p t I; apply Hr, HI, I). clear - HF H9.
  induction F as [|[p t] F IH]; [unfold qsum; cbn; ring|].
  assert (Ec : qat (columns P rp) p t = qat rp t p).
  { destruct (HF p t) as [Hp Ht]; [now left|]. unfold qat, columns. rewrite nth_mapseq by auto.
    rewrite (nth_indep _ 0%Qc (nth p [] 0%Qc)) by (rewrite map_length; destruct H9 as [-> _]; auto).
    now rewrite map_nth with (f := fun r => nth p r 0%Qc). }
  unfold qsum in *. cbn [map fold_right fst snd] in *. rewrite <- IH by (intros; apply HF; now right). unfold pair_cost. rewrite Ec. ring.
Qed.

(** Before post-processing, and whether it is on or off: no project has two teams, so the number of
    matched pairs is the number of matched projects, the number of unmatched projects is what is left,
    and "Matching All Projects to Teams" says that every project has a team.  "Team assigned to
    multiple Projects" says just that.  The value counts every team once, the weight every pair. *)
Theorem C76_totals_before :
  forall iters flag (alpha : Qc) thr pp opt caps types (rt : list Qc) (rp : list (list Qc)) P o teams,
    Forall (fun ty => 1 <= ty <= 5) types -> types <> [] ->
    kc_initialize caps types = Some o -> room caps types (o_combos o) -> generated caps types (o_combos o) teams ->
    nle thr n0 -> (pp = true -> opt = 1 \/ opt = 2) ->
    length rt = length teams -> shape (length teams) P rp ->
    exists a z unmatched twice,
      kc_call iters flag (Fin alpha) thr pp opt caps types (map Fin rt) (inj rp) = Some a /\
      kc_pre_totals P (map Fin rt) (transpose P (inj rp)) (a_pre a) = Some (z, unmatched, twice) /\
      let pairs := p_pairs (a_pre a) in let sel := p_sel (a_pre a) in
      NoDup (map fst pairs) /\
      NoDup sel /\ (forall t, In t sel <-> exists p, In (p, t) pairs) /\
      z_value z = Fin (- qsum (map (fun t => nth t rt 0) sel))%Qc /\
      z_weight z = Fin (qsum (map (fun e => qat rp (snd e) (fst e)) pairs)) /\
      z_teams z = length sel /\ z_matched z = length pairs /\
      z_matched z + unmatched = P /\
      (z_all z = true <-> forall p, p < P -> exists t, In (p, t) pairs) /\
      (twice = true <-> exists p p' t, p <> p' /\ In (p, t) pairs /\ In (p', t) pairs) /\
      (twice = false -> totals_of P rt rp pairs z).
Proof.
  intros iters flag alpha thr pp opt caps types rt rp P o teams H1 H2 H3 H4 H5 H6 H7 H8 H9.
  destruct (summary iters flag alpha thr pp opt caps types rt rp P o teams) as
    (a & z & u & tw & z1 & F & Ea & Ez & _ & NF & Hr & Ns & Hs & Hv & Hw & Ht & Hm & Hu & Ha & Htw & _); auto.
  exists a, z, u, tw. cbn zeta. do 12 (split; auto). intros ->.
  assert (Pm : Permutation (p_sel (a_pre a)) (map snd (p_pairs (a_pre a)))).
  { apply NoDup_Permutation; auto.
    - assert (N1 : NoDup (p_pairs (a_pre a))) by (eapply NoDup_map_inv; exact NF).
      assert (X : forall p p' t, In (p, t) (p_pairs (a_pre a)) -> In (p', t) (p_pairs (a_pre a)) -> p = p').
      { intros p p' t I I'. destruct (Nat.eq_dec p p') as [|N]; auto. exfalso. assert (Y : false = true) by (apply Htw; eauto 7). discriminate. }
      revert N1 X. clear. generalize (p_pairs (a_pre a)). intros l N1 X.
      replace (map snd l) with (map fst (map (fun c : nat * nat => (snd c, fst c)) l)) by (rewrite map_map; reflexivity).
      apply nodup_fst.
      + apply FinFun.Injective_map_NoDup; auto. intros [x1 x2] [y1 y2] [= -> ->]. reflexivity.
      + intros t p p' I I'. apply in_map_iff in I as ([q1 q2] & [= -> ->] & I), I' as ([q3 q4] & [= -> ->] & I'). eapply X; eauto.
    - intro t. rewrite Hs, in_map_iff. split; [intros (p & I); exists (p, t); auto|]. intros ([p t'] & <- & I). now exists p. }
  split; [|split; [|split; [|split]]]; auto.
  - rewrite Hv. f_equal. f_equal. rewrite (qsum_perm _ _ (Permutation_map _ Pm)), map_map. reflexivity.
  - rewrite Ht, (Permutation_length Pm), map_length. reflexivity.
Qed.

(** Without post-processing the totals printed at the end count, for every team, only its matched
    project of smallest number. *)
Theorem C76_totals_unrepaired :
  forall iters flag (alpha : Qc) thr opt caps types (rt : list Qc) (rp : list (list Qc)) P o teams,
    Forall (fun ty => 1 <= ty <= 5) types -> types <> [] ->
    kc_initialize caps types = Some o -> room caps types (o_combos o) -> generated caps types (o_combos o) teams ->
    nle thr n0 ->
    length rt = length teams -> shape (length teams) P rp ->
    exists a F z,
      kc_call iters flag (Fin alpha) thr false opt caps types (map Fin rt) (inj rp) = Some a /\
      incl F (p_pairs (a_pre a)) /\ NoDup (map snd F) /\
      (forall p t, In (p, t) (p_pairs (a_pre a)) -> exists p', In (p', t) F /\ p' <= p) /\
      kc_post_totals false P (map Fin rt) (transpose P (inj rp)) (a_pre a) (a_post a) = Some z /\
      totals_of P rt rp F z.
Proof.
  intros iters flag alpha thr opt caps types rt rp P o teams H1 H2 H3 H4 H5 H6 H8 H9.
  destruct (summary iters flag alpha thr false opt caps types rt rp P o teams) as
    (a & z0 & u & tw & z & F & Ea & _ & Ez & _ & Hr & _ & Hsel & _ & _ & _ & _ & _ & _ & _ & Ht & HS & HI & _ & Nsn & _ & Hp); auto; [discriminate|].
  destruct (Hp eq_refl) as [Eq Hmin]. exists a, F, z. do 3 (split; auto). split; [|auto].
  intros p t I. assert (J : In t (map snd F)) by (rewrite HS, Eq; apply Hsel; eauto).
  apply in_map_iff in J as ([p' t'] & Et & J). cbn in Et. subst t'. exists p'. split; auto. eapply Hmin; eauto.
Qed.

(** Under the conditions of C70 the printed totals are those of the best selection. *)
Theorem C76_best :
  forall iters flag (alpha th : Qc) opt caps types (rt : list Qc) (rp : list (list Qc)) P o teams
         (F : list (nat * nat)) (B eps : Qc),
    Forall (fun ty => 1 <= ty <= 5) types -> types <> [] ->
    kc_initialize caps types = Some o -> room caps types (o_combos o) -> generated caps types (o_combos o) teams ->
    opt = 1 \/ opt = 2 -> length rt = length teams -> shape (length teams) P rp ->
    counting (length teams) (length caps) (o_weights o) caps ->
    (0 <= alpha)%Qc -> (alpha < 1)%Qc -> (0 < eps)%Qc -> (0 <= B)%Qc ->
    (forall t p, t < length teams -> p < P -> (- B <= qat rp t p /\ qat rp t p <= B)%Qc) ->
    (forall t, t < length teams -> (- B <= nth t rt 0 /\ nth t rt 0 <= B)%Qc) ->
    (forall t, t < length teams -> (- zq 1000000 <= nth t rt 0)%Qc) ->
    best_by (length teams) (length caps) P (o_weights o) caps (columns P rp) rt F eps ->
    let N := qn (1 + length caps + length teams) in
    (N * (zq 21 * N * B + zq 6 * eps) <= qn iters * ((1 - alpha) * eps))%Qc ->
    (- eps < N * th)%Qc -> (th <= 0)%Qc ->
    exists a z z',
      kc_call iters flag (Fin alpha) (Fin th) true opt caps types (map Fin rt) (inj rp) = Some a /\
      kc_pre_totals P (map Fin rt) (transpose P (inj rp)) (a_pre a) = Some (z, P - length F, false) /\
      kc_post_totals true P (map Fin rt) (transpose P (inj rp)) (a_pre a) (a_post a) = Some z' /\
      totals_of P rt rp F z /\ totals_of P rt rp F z'.
Proof.
  intros iters flag alpha th opt caps types rt rp P o teams F B eps H1 H2 H3 H4 H5 H6 H7 H8 H9 H10 H11 H12 H13 H14 H15 H16 H17 N H18 H19 H20.
  destruct (C70_call iters flag alpha th true opt caps types rt rp P o teams F B eps) as (a & Ea & Pp & Pq & _); auto.
  destruct (C76_totals_before iters flag alpha (Fin th) true opt caps types rt rp P o teams) as
    (a' & z & u & tw & Ea' & Ez & NF & _ & _ & _ & _ & _ & Hm & Hu & _ & Htw & Htot); auto.
  rewrite Ea in Ea'. injection Ea' as <-.
  destruct (summary iters flag alpha (Fin th) true opt caps types rt rp P o teams) as
    (a' & z0 & u0 & tw0 & z' & F' & Ea' & _ & Ez' & _ & _ & _ & _ & _ & _ & _ & _ & _ & _ & _ & Ht' & HS & HI & NF' & NS' & _); auto.
  rewrite Ea in Ea'. injection Ea' as <-. destruct H17 as [(NfF & NsF & _) _].
  assert (Etw : tw = false).
  { destruct tw; auto. exfalso. destruct (proj1 Htw eq_refl) as (p & p' & t & Np & I & I').
    apply (Permutation_in _ Pp) in I, I'. apply Np. clear - NsF I I'. induction F as [|[q s] F IH]; [destruct I|]. cbn in NsF. inversion NsF as [|? ? X Y]; subst.
    destruct I as [[= -> ->]|I], I' as [[= ->]|I']; auto; [exfalso; apply X; now apply (in_map snd) in I'|]. subst. exfalso. apply X. now apply (in_map snd) in I. }
  subst tw. exists a, z, z'. split; auto. split.
  { rewrite Ez. rewrite Hm, (Permutation_length Pp) in Hu. do 3 f_equal. lia. }
  split; auto. split; [eapply totals_perm; [exact Pp|auto]|].
  eapply totals_perm; [|exact Ht']. apply NoDup_Permutation_bis.
  - eapply NoDup_map_inv; exact NF'.
  - rewrite <- (map_length snd F'), HS, (Permutation_length Pq), map_length. lia.
  - intros c I. apply (Permutation_in _ Pp), HI, I.
Qed.

(** One department with room for two, two teams of weight 1 and one of weight 2, four projects. *)
Definition sum_teams : list team := [(1, 1, 1); (1, 1, 1); (1, 1, 3)].
Definition sum_rt := [zq (-10); zq (-10); zq (-10)].
Definition sum_rp := [[zq (-50); zq (-50); 0; 0]; [0; 0; zq (-50); 0]; [0; 0; 0; zq (-60)]]%Qc.
Lemma sum_setup types teams combos : In (types, teams, combos) [([1; 3], sum_teams, [(1, 1)]); ([1], [(1, 1, 1); (1, 1, 1)], [(1, 1)])] ->
  generated [2] types combos teams /\ room [2] types combos.
Proof.
  intro I. assert (K : forall b, In b (blocks types combos) -> in_range [2] b).
  { intros b Hb. cbn in I. destruct I as [[= <- <- <-]|[[= <- <- <-]|[]]]; cbn in Hb; unfold in_range; repeat (destruct Hb as [<- |Hb]; [cbn; lia|]); destruct Hb. }
  split.
  - exists (count_fn [2]). split; [intros b Hb; now apply count_ok, K|].
    cbn in I. destruct I as [[= <- <- <-]|[[= <- <- <-]|[]]]; vm_compute; reflexivity.
  - intros b Hb. cbn in I. unfold sensible, fits. destruct I as [[= <- <- <-]|[[= <- <- <-]|[]]]; cbn in Hb;
    repeat (destruct Hb as [<- |Hb]; [cbn; intros S d Hd; assert (d = 1) as -> by lia; cbn; lia|]); destruct Hb.
Qed.

(** All four projects are matched, one team to two of them, and the three teams exceed the capacity;
    after post-processing two teams remain with one project each. *)
Example C76_example :
  exists o a z0 z,
    kc_initialize [2] [1; 3] = Some o /\ generated [2] [1; 3] (o_combos o) sum_teams /\ room [2] [1; 3] (o_combos o) /\
    length sum_rt = length sum_teams /\ shape (length sum_teams) 4 sum_rp /\
    kc_call 1 false n0 n0 true 2 [2] [1; 3] (map Fin sum_rt) (inj sum_rp) = Some a /\
    p_pairs (a_pre a) = [(0, 0); (1, 0); (2, 1); (3, 2)] /\
    a_results a = [{| r_u := 1; r_v := 1; r_type := 1; r_teams := [1]; r_projects := [2] |};
                   {| r_u := 1; r_v := 1; r_type := 1; r_teams := [2]; r_projects := [3] |}] /\
    kc_pre_totals 4 (map Fin sum_rt) (transpose 4 (inj sum_rp)) (a_pre a) = Some (z0, 0, true) /\
    z0 = {| z_value := zn 30; z_teams := 3; z_matched := 4; z_all := true; z_weight := zn (-210) |} /\
    kc_post_totals true 4 (map Fin sum_rt) (transpose 4 (inj sum_rp)) (a_pre a) (a_post a) = Some z /\
    z = {| z_value := zn 20; z_teams := 2; z_matched := 2; z_all := false; z_weight := zn (-100) |}.
Proof.
  destruct (sum_setup [1; 3] sum_teams [(1, 1)]) as [G Ro]; [now left|].
  do 4 eexists. split; [vm_compute; reflexivity|]. split; [exact G|]. split; [exact Ro|]. split; [reflexivity|].
  split; [split; [reflexivity|repeat constructor]|]. split; [vm_compute; reflexivity|].
  split; [reflexivity|]. split; [reflexivity|]. split; [vm_compute; reflexivity|]. split; [vm_compute; reflexivity|].
  split; [vm_compute; reflexivity|]. vm_compute. reflexivity.
Qed.

(** Full statement without post-processing: the results are a selection and the totals printed at the
    end are those of the reported pairs.  False: the same team is reported with both projects, and
    the totals count one of them and say that not all projects are matched. *)
Theorem C76_unrepaired_refuted :
  exists o a z,
    kc_initialize [2] [1] = Some o /\ generated [2] [1] (o_combos o) [(1, 1, 1); (1, 1, 1)] /\ room [2] [1] (o_combos o) /\
    let rt := [zq (-10); zq (-10)] in let rp := [[zq (-1); zq (-2)]; [zq (-3); zq (-4)]] in
    kc_call 1 false n0 n0 false 1 [2] [1] (map Fin rt) (inj rp) = Some a /\
    a_results a = [{| r_u := 1; r_v := 1; r_type := 1; r_teams := [2; 2]; r_projects := [1; 2] |}] /\
    kc_post_totals false 2 (map Fin rt) (transpose 2 (inj rp)) (a_pre a) (a_post a) = Some z /\
    z_weight z = zn (-3) /\ z_all z = false /\ ~ totals_of 2 rt rp [(0, 1); (1, 1)] z.
Proof.
  destruct (sum_setup [1] [(1, 1, 1); (1, 1, 1)] [(1, 1)]) as [G Ro]; [cbn; auto|].
  do 3 eexists. split; [vm_compute; reflexivity|]. split; [exact G|]. split; [exact Ro|]. cbn zeta.
  split; [vm_compute; reflexivity|]. split; [reflexivity|]. split; [vm_compute; reflexivity|]. split; [vm_compute; reflexivity|].
  split; [reflexivity|]. intros (_ & _ & H & _). discriminate.
Qed.

Example C76_best_example :
  exists a z z', kc_call 4200 true (Fin (Q2Qc (1 # 2))) n0 true 1 [1; 1] [1; 1] (map Fin two_rt) (inj two_rp) = Some a /\
    kc_pre_totals 2 (map Fin two_rt) (transpose 2 (inj two_rp)) (a_pre a) = Some (z, 0, false) /\
    kc_post_totals true 2 (map Fin two_rt) (transpose 2 (inj two_rp)) (a_pre a) (a_post a) = Some z' /\
    z_value z' = zn 3 /\ z_weight z' = zn (-1) /\ z_all z' = true.
Proof.
  destruct (kc_initialize [1; 1] [1; 1]) as [o|] eqn:E; [|vm_compute in E; discriminate].
  assert (Eo : o_combos o = [(1, 1); (1, 2); (2, 2)] /\ o_weights o = [[1; 1; 0; 0]; [0; 0; 1; 1]]) by (vm_compute in E; injection E as <-; auto).
  destruct Eo as (Eo & Ew).
  assert (Hg : generated [1; 1] [1; 1] (o_combos o) two_teams).
  { rewrite Eo. exists (count_fn [1; 1]). split; [|vm_compute; reflexivity].
    intros b Hb. apply count_ok. cbn in Hb. unfold in_range. repeat (destruct Hb as [<- |Hb]; [cbn; lia|]). destruct Hb. }
  assert (Hroom : room [1; 1] [1; 1] (o_combos o)).
  { rewrite Eo. intros b Hb. cbn in Hb. unfold sensible, fits.
    repeat (destruct Hb as [<- |Hb]; [cbn; intros S d Hd; assert (d = 1 \/ d = 2) as [-> | ->] by lia; cbn; lia|]). destruct Hb. }
  destruct (C76_best 4200 true (Q2Qc (1 # 2)) 0 1 [1; 1] [1; 1] two_rt two_rp 2 o two_teams [(0, 3); (1, 0)] (zq 2) 1) as
    (a & z & z' & Ea & Ez & Ez' & _ & Hz'); auto.
  - repeat constructor.
  - discriminate.
  - split; [reflexivity|repeat constructor].
  - apply (C70_one_type 1 [1; 1] [1; 1] o two_teams); auto.
  - vm_compute; discriminate.
  - reflexivity.
  - reflexivity.
  - vm_compute; discriminate.
  - intros t p Ht Hp; cbn in Ht; revert t Ht; revert p Hp; refine (below2 _ _ _); refine (below4 _ _ _ _ _); split; vm_compute; discriminate.
  - refine (below4 _ _ _ _ _); split; vm_compute; discriminate.
  - refine (below4 _ _ _ _ _); vm_compute; discriminate.
  - rewrite Ew. exact two_best.
  - vm_compute; discriminate.
  - reflexivity.
  - apply Qcle_refl.
  - exists a, z, z'. split; [exact Ea|]. split; [exact Ez|]. split; [exact Ez'|]. destruct Hz' as (-> & -> & _ & _ & Ha).
    split; [vm_compute; reflexivity|]. split; [vm_compute; reflexivity|]. apply Ha. refine (below2 _ _ _); [exists 3|exists 0]; cbn; auto.
Qed.

Print Assumptions C76_feasible.
Print Assumptions C76_totals_after.
Print Assumptions C76_totals_before.
Print Assumptions C76_totals_unrepaired.
Print Assumptions C76_best.
Print Assumptions C76_unrepaired_refuted.
