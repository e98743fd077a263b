(** * Property C71: what the post-processing of the K-SAT front end repairs. *)
From Verif Require Import Num NumFacts Arr ArrFacts Spec M_Ksat P_Ksat M_InOut M_Runs T_Runs M_Tsp_Run M_Ksat_Py P_Ksat_Py P_Ksat_Gen T_Ksat_Py.
From Coq Require Import Permutation.
Local Open Scope nat_scope.

(** ** Loops that make progress *)
Lemma fold_break_progress {S A} (body : S -> A -> option (S * bool)) (same low : S -> Prop) l s a0 :
  same s -> In a0 l ->
  (forall s a, In a l -> same s -> exists s' b, body s a = Some (s', b) /\ ((same s' /\ b = false) \/ low s')) ->
  (forall s, same s -> exists s' b, body s a0 = Some (s', b) /\ low s') ->
  (forall s a, In a l -> low s -> exists s' b, body s a = Some (s', b) /\ low s') ->
  exists s', fold_break body l s = Some s' /\ low s'.
Proof.
  revert s. induction l as [|a l IH]; intros s Hs [] Hb H0 Hl; cbn [fold_break].
  - subst a. destruct (H0 s Hs) as (s' & b & E & L). rewrite E. cbn [bind]. destruct b; [eauto|].
    apply fold_break_ok; auto. intros; apply Hl; auto. now right.
  - destruct (Hb s a (or_introl eq_refl) Hs) as (s' & b & E & [(Hs' & ->) | L]); rewrite E; cbn [bind].
    + apply IH; auto; intros; [apply Hb|apply Hl]; auto; now right.
    + destruct b; [eauto|]. apply fold_break_ok; auto. intros; apply Hl; auto. now right.
Qed.
Lemma fold_break_either {S A} (body : S -> A -> option (S * bool)) (same low : S -> Prop) l s :
  same s ->
  (forall s a, In a l -> same s -> exists s' b, body s a = Some (s', b) /\ ((same s' /\ b = false) \/ low s')) ->
  (forall s a, In a l -> low s -> exists s' b, body s a = Some (s', b) /\ low s') ->
  exists s', fold_break body l s = Some s' /\ (same s' \/ low s').
Proof.
  revert s. induction l as [|a l IH]; intros s Hs Hb Hl; cbn [fold_break]; [eauto|].
  destruct (Hb s a (or_introl eq_refl) Hs) as (s' & b & E & [(Hs' & ->) | L]); rewrite E; cbn [bind].
  - apply IH; auto; intros; [apply Hb|apply Hl]; auto; now right.
  - destruct b; [eauto|]. destruct (fold_break_ok body low l s' L) as (s2 & E2 & L2); [|eauto]. intros; apply Hl; auto. now right.
Qed.
Lemma foldM_progress {S A} (body : S -> A -> option S) (same low : S -> Prop) l s a0 :
  same s -> In a0 l ->
  (forall s a, In a l -> same s -> exists s', body s a = Some s' /\ (same s' \/ low s')) ->
  (forall s, same s -> exists s', body s a0 = Some s' /\ low s') ->
  (forall s a, In a l -> low s -> exists s', body s a = Some s' /\ low s') ->
  exists s', foldM body l s = Some s' /\ low s'.
Proof.
  revert s. induction l as [|a l IH]; intros s Hs [] Hb H0 Hl; cbn [foldM].
  - subst a. destruct (H0 s Hs) as (s' & E & L). rewrite E. cbn [bind].
    apply foldM_ok; auto. intros; apply Hl; auto. now right.
  - destruct (Hb s a (or_introl eq_refl) Hs) as (s' & E & [Hs' | L]); rewrite E; cbn [bind].
    + apply IH; auto; intros; [apply Hb|apply Hl]; auto; now right.
    + apply foldM_ok; auto. intros; apply Hl; auto. now right.
Qed.

(** ** One attempt *)

(** the decisions are still [h] *)
Definition unchanged (nv : nat) (f : formula) (h : list num) (st : ks_obj * nat) : Prop :=
  flagged nv f (fst st) /\ k_hd (fst st) = h /\ snd st = length (unsat f h) /\ v_unsat (k_sum (fst st)) <> [].
Definition lowered (nv : nat) (f : formula) (h : list num) (st : ks_obj * nat) : Prop :=
  counted nv f (length (unsat f h) - 1) st.
Lemma try_flip_either nv f h st var val : consistent nv f -> var < nv -> unsat f h <> [] -> unchanged nv f h st ->
  exists st' b, try_flip f st var val = Some (st', b) /\
    ((unchanged nv f h st' /\ b = false) \/ lowered nv f h st') /\
    (length (unsat f (upd h var val)) < length (unsat f h) -> lowered nv f h st').
Proof.
  intros W Hv Hne ((L & Fl) & Eh & En & Hs). destruct st as [o old]. cbn [fst snd] in *. subst old. unfold try_flip.
  rewrite (set_lt (k_hd o)) by lia. cbn [bind].
  destruct (get_summary_ok nv f (upd (k_hd o) var val) W) as (s & Es & _ & _ & _ & Us); [rewrite upd_length; auto|].
  rewrite Es. cbn [bind]. rewrite Us. destruct (Nat.ltb_spec (length (unsat f (upd (k_hd o) var val))) (length (unsat f h))) as [C|C]; cbn [bind].
  - eexists _, _. split; [reflexivity|].
    assert (Lw : lowered nv f h ({| k_hd := upd (k_hd o) var val; k_sum := s; k_flag := flag_of s |}, length (unsat f (upd (k_hd o) var val)))).
    { split; [|split]; cbn [fst snd k_hd]; [|reflexivity|lia]. split; cbn [k_hd k_flag]; [rewrite upd_length; auto|apply flag_of_unsat; auto]. }
    split; auto.
  - eexists _, _. split; [reflexivity|]. split; [|rewrite Eh in C; lia].
    left. split; [|reflexivity]. split; [split; auto|]. split; [exact Eh|]. split; [reflexivity|]. cbn [fst k_sum]. rewrite Us.
    destruct (unsat f (upd (k_hd o) var val)); [|discriminate]. cbn in C. destruct (unsat f h); [congruence|cbn in C; lia].
Qed.
Lemma try_assign_either nv f h vars st vals : consistent nv f -> Forall (fun v => v < nv) vars -> unsat f h <> [] -> unchanged nv f h st ->
  exists st' b, try_assign f vars st vals = Some (st', b) /\
    ((unchanged nv f h st' /\ b = false) \/ lowered nv f h st') /\
    (forall h', assign h vars vals = Some h' -> length (unsat f h') < length (unsat f h) -> lowered nv f h st').
Proof.
  intros W Hv Hne ((L & Fl) & Eh & En & Hs). destruct st as [o old]. cbn [fst snd] in *. subst old. unfold try_assign.
  destruct (assign_ok vars vals (k_hd o) nv L Hv) as (hd' & Ea & La). rewrite Ea. cbn [bind].
  destruct (get_summary_ok nv f hd' W La) as (s & Es & _ & _ & _ & Us).
  rewrite Es. cbn [bind]. rewrite Us. rewrite Eh in Ea. destruct (Nat.ltb_spec (length (unsat f hd')) (length (unsat f h))) as [C|C].
  - eexists _, _. split; [reflexivity|].
    assert (Lw : lowered nv f h ({| k_hd := hd'; k_sum := s; k_flag := flag_of s |}, length (unsat f hd'))).
    { split; [|split]; cbn [fst snd k_hd]; [|reflexivity|lia]. split; cbn [k_hd k_flag]; [auto|apply flag_of_unsat; auto]. }
    split; auto.
  - eexists _, _. split; [reflexivity|]. split.
    + left. split; [|reflexivity]. split; [split; auto|]. split; [exact Eh|]. split; [reflexivity|]. cbn [fst k_sum]. rewrite Us.
      destruct (unsat f hd'); [|discriminate]. cbn in C. destruct (unsat f h); [congruence|cbn in C; lia].
    + intros h' E'. rewrite Ea in E'. injection E' as <-. lia.
Qed.

(** ** Counting violated clauses *)

(** [n] clauses are violated *)
Definition violations (f : formula) (hd : list num) (n : nat) : Prop :=
  exists l, NoDup l /\ (forall c, In c l <-> c < y_nc f /\ ~ clause_true f hd c) /\ length l = n.
Lemma violations_unsat nv f hd n : consistent nv f -> length hd = nv -> (violations f hd n <-> n = length (unsat f hd)).
Proof.
  intros W L. split.
  - intros (l & Nl & H & <-). apply Permutation_length, NoDup_Permutation; auto.
    + apply NoDup_filter, seq_NoDup.
    + intros c. rewrite H. symmetry. apply (unsat_iff nv); auto.
  - intros ->. exists (unsat f hd). split; [apply NoDup_filter, seq_NoDup|]. split; [|reflexivity].
    intros c. apply (unsat_iff nv); auto.
Qed.

(** ** First stage *)
Lemma foldM_keeps {S A} (body : S -> A -> option S) (Q : S -> Prop) l s s' :
  foldM body l s = Some s' -> (forall s a s', In a l -> body s a = Some s' -> Q s -> Q s') -> Q s -> Q s'.
Proof.
  revert s. induction l as [|a l IH]; intros s E H Hs; cbn in E; [injection E as <-; auto|].
  destruct (body s a) as [s1|] eqn:Eb; [|discriminate]. cbn [bind] in E. apply (IH s1); auto.
  - intros; eapply H; eauto. now right.
  - eapply H; eauto. now left.
Qed.
Lemma foldM_reaches {S A} (body : S -> A -> option S) (Q : S -> Prop) l s s' a0 :
  foldM body l s = Some s' -> In a0 l -> (forall s s', body s a0 = Some s' -> Q s') ->
  (forall s a s', In a l -> body s a = Some s' -> Q s -> Q s') -> Q s'.
Proof.
  revert s. induction l as [|a l IH]; intros s E Hi H0 H; [destruct Hi|]. cbn in E.
  destruct (body s a) as [s1|] eqn:Eb; [|discriminate]. cbn [bind] in E. destruct Hi as [->|Hi].
  - eapply (foldM_keeps body Q l s1); eauto. intros; eapply H; eauto. now right.
  - apply (IH s1); auto. intros; eapply H; eauto. now right.
Qed.
Lemma lit_mem_in e l : lit_mem e l = true <-> In e l.
Proof.
  unfold lit_mem. rewrite existsb_exists. destruct e as [v t]. split.
  - intros ([v' t'] & I & E). cbn in E. apply andb_true_iff in E as [E1 E2]. apply Nat.eqb_eq in E1. apply Z.eqb_eq in E2. now subst.
  - intros I. exists (v, t). split; auto. cbn. now rewrite Nat.eqb_refl, Z.eqb_refl.
Qed.
Lemma common_in nv f s hd l c c' v t : consistent nv f -> length hd = nv -> get_summary f hd = Some s ->
  common_elements f s = Some l -> c <> c' -> c < y_nc f -> c' < y_nc f -> ~ clause_true f hd c -> ~ clause_true f hd c' ->
  in_clause f c v t -> in_clause f c' v t -> In (v, t) l.
Proof.
  intros W L Es El Hcc Hc Hc' Hv Hv' I I'.
  destruct (get_summary_ok nv f hd W L) as (s0 & E0 & Ac & Inac & _ & U). rewrite Es in E0. injection E0 as <-.
  assert (Uc : In c (v_unsat s)) by (rewrite U; apply (unsat_iff nv); auto).
  assert (Uc' : In c' (v_unsat s)) by (rewrite U; apply (unsat_iff nv); auto).
  assert (Un : forall x, In x (v_unsat s) -> x < y_nc f).
  { intros x H. rewrite U in H. apply filter_In in H as [H _]. apply in_seq in H. lia. }
  unfold common_elements in El.
  assert (Inner : forall x acc acc', In x (v_unsat s) ->
    foldM (fun acc r => b <- literals f r ;; Some (acc ++ filter (fun e => negb (lit_mem e acc)) (common_of s (lits f x) b)))
      (filter (fun i => negb (i =? x)) (v_unsat s)) acc = Some acc' -> In (v, t) acc -> In (v, t) acc').
  { intros x acc acc' Hx E0 Hin. apply (foldM_keeps _ (fun l => In (v, t) l) _ _ _ E0); [|exact Hin]. intros s1 a s2 Ha E H.
    apply filter_In in Ha as [Ha _]. rewrite (literals_ok nv) in E by auto. cbn [bind] in E. injection E as <-. apply in_or_app. auto. }
  assert (Hcom : In (v, t) (common_of s (lits f c) (lits f c'))).
  { unfold common_of. apply in_flat_map. exists (v, t). split; [now apply in_lits|]. apply in_flat_map. exists (v, t). split; [now apply in_lits|].
    cbn [fst snd]. rewrite Nat.eqb_refl, Z.eqb_refl. cbn [andb].
    pose proof (c_used _ _ W c v t I) as Hu. pose proof (proj1 (Forall_forall _ _) (c_range _ _ W) v Hu) as Hr. cbn beta in Hr.
    assert (Nt : ~ lit_true hd v t) by (intros T; apply Hv; exists v, t; auto).
    assert (Ex : nth_error hd v = Some (nth v hd n0)) by (apply nth_error_nth'; lia).
    destruct (c_sign _ _ W c v t I) as [-> | ->].
    - assert (Z : nth v hd n0 = n0).
      { destruct (truthy (nth v hd n0)) eqn:Et; [|now apply falsy_iff in Et]. apply truthy_iff in Et. exfalso. apply Nt. exists (nth v hd n0). auto. }
      assert (M : mem v (v_inactive s) = true).
      { apply mem_In. rewrite Inac. apply filter_In. split; auto. rewrite Z. reflexivity. }
      rewrite M. cbn. rewrite orb_true_r. now left.
    - assert (Z : nth v hd n0 <> n0) by (intros Z; apply Nt; exists (nth v hd n0); auto).
      assert (M : mem v (v_active s) = true).
      { apply mem_In. rewrite Ac. apply filter_In. split; auto. now apply truthy_iff. }
      rewrite M. cbn. now left. }
  apply (foldM_reaches _ (fun l => In (v, t) l) _ _ _ c El Uc).
  - intros acc acc' E. rewrite (literals_ok nv) in E by auto. cbn [bind] in E.
    apply (foldM_reaches _ (fun l => In (v, t) l) _ _ _ c' E).
    + apply filter_In. split; auto. apply negb_true_iff, Nat.eqb_neq. auto.
    + intros s1 s2 E2. rewrite (literals_ok nv) in E2 by auto. cbn [bind] in E2. injection E2 as <-. apply in_or_app.
      destruct (lit_mem (v, t) s1) eqn:M; [left; now apply lit_mem_in|right]. apply filter_In. split; auto. now rewrite M.
    + intros s1 a s2 Ha E2 H. apply filter_In in Ha as [Ha _]. rewrite (literals_ok nv) in E2 by auto. cbn [bind] in E2. injection E2 as <-. apply in_or_app. auto.
  - intros s1 a s2 Ha E H. rewrite (literals_ok nv) in E by auto. cbn [bind] in E. eapply Inner; eauto.
Qed.

(** If making a literal true that two violated clauses share leaves fewer violated clauses, the first
    stage leaves fewer. *)
Theorem C71_shared_literal :
  forall (nv : nat) (f : formula) (o : ks_obj) (c c' v : nat) (t : Z) (n n' : nat),
    consistent nv f -> length (k_hd o) = nv -> get_summary f (k_hd o) = Some (k_sum o) -> k_flag o = flag_of (k_sum o) ->
    c <> c' -> c < y_nc f -> c' < y_nc f -> ~ clause_true f (k_hd o) c -> ~ clause_true f (k_hd o) c' ->
    in_clause f c v t -> in_clause f c' v t ->
    violations f (k_hd o) n -> violations f (upd (k_hd o) v (if (t =? 1)%Z then n1 else n0)) n' -> n' < n ->
    exists o1 n1, phase1 f o = Some o1 /\ violations f (k_hd o1) n1 /\ n1 < n /\ get_summary f (k_hd o1) = Some (k_sum o1).
Proof.
  intros nv f o c c' v t n n' W L S Fl Hcc Hc Hc' Vc Vc' Ic Ic' Vn Vn' Lt.
  pose proof (summary_unsat nv f (k_hd o) (k_sum o) W L S) as U.
  apply (violations_unsat nv) in Vn; auto. apply (violations_unsat nv) in Vn'; [|auto|rewrite upd_length; auto].
  assert (F : flagged nv f o) by (split; [auto|rewrite Fl; apply flag_of_unsat; auto]).
  assert (Hne : unsat f (k_hd o) <> []) by (intros Q; rewrite Q in Vn; cbn in Vn; lia).
  unfold phase1. destruct (common_elements_ok nv f (k_sum o) (k_hd o) W U) as (l & El & Hl). rewrite El. cbn [bind].
  pose proof (common_in nv f _ _ _ c c' v t W L S El Hcc Hc Hc' Vc Vc' Ic Ic') as Il.
  match goal with |- context [fold_break ?bd ?l0 ?st0] =>
    destruct (fold_break_progress bd (unchanged nv f (k_hd o)) (lowered nv f (k_hd o)) l0 st0 (v, t)) as ([o' old'] & E & C) end; auto.
  - split; [exact F|]. split; [reflexivity|]. cbn [fst snd]. rewrite U. auto.
  - intros st e He Hst. destruct (try_flip_either nv f (k_hd o) st (fst e) (if (snd e =? -1)%Z then n0 else n1)) as (st' & b & E & H & _); eauto.
    apply (proj1 (Forall_forall _ _) Hl); auto.
  - intros st Hst. destruct (try_flip_either nv f (k_hd o) st v (if (t =? -1)%Z then n0 else n1)) as (st' & b & E & _ & H); eauto.
    { apply (proj1 (Forall_forall _ _) Hl (v, t)); auto. }
    exists st', b. split; [exact E|]. apply H.
    destruct (c_sign _ _ W c v t Ic) as [-> | ->]; cbn in Vn' |- *; lia.
  - intros st e He Hst. apply (try_flip_counted nv); auto. apply (proj1 (Forall_forall _ _) Hl); auto.
  - rewrite E. cbn [bind]. destruct C as ([L' F'] & O' & B'). cbn [fst snd] in *.
    destruct (get_summary_ok nv f (k_hd o') W L') as (s & Es & _). rewrite Es. cbn [bind]. eexists _, old'. split; [reflexivity|]. cbn [k_hd k_sum].
    split; [apply (violations_unsat nv); auto|]. split; [|exact Es]. destruct (unsat f (k_hd o)); [congruence|cbn in *; lia].
Qed.

(** ** Third stage *)

(** the decisions [h] with the variables [vars] set to [g] *)
Definition with_values (h : list num) (vars : list nat) (g : nat -> bool) : list num :=
  map (fun v => if mem v vars then bit (g v) else nth v h n0) (seq 0 (length h)).
Lemma with_values_length h vars g : length (with_values h vars g) = length h.
Proof. unfold with_values. now rewrite map_length, seq_length. Qed.
Lemma with_values_nth h vars g v : v < length h -> nth v (with_values h vars g) n0 = if mem v vars then bit (g v) else nth v h n0.
Proof.
  intros H. unfold with_values. set (k := fun v : nat => _). rewrite (nth_indep _ n0 (k 0)) by (rewrite map_length, seq_length; auto).
  rewrite map_nth, seq_nth by auto. reflexivity.
Qed.
Lemma assign_with h vars g : Forall (fun v => v < length h) vars -> assign h vars (map g vars) = Some (with_values h vars g).
Proof.
  intros F. enough (E : exists h', assign h vars (map g vars) = Some h' /\ length h' = length h /\
    forall v, v < length h -> nth v h' n0 = if mem v vars then bit (g v) else nth v h n0).
  { destruct E as (h' & E & L & H). rewrite E. f_equal. apply (nth_ext _ _ n0 n0); [now rewrite with_values_length|].
    intros v Hv. rewrite L in Hv. rewrite with_values_nth by auto. auto. }
  unfold assign. revert h F. induction vars as [|x vars IH]; intros h F; cbn [map combine foldM].
  - exists h. auto.
  - inversion F as [|? ? Hx F']; subst. cbn [fst snd]. rewrite set_lt by auto. cbn [bind].
    destruct (IH (upd h x (bit (g x)))) as (h' & E & L & H); [now rewrite upd_length|].
    rewrite upd_length in L, H. exists h'. split; [exact E|]. split; [exact L|]. intros v Hv. rewrite H by auto.
    cbn [mem existsb]. unfold mem. cbn [existsb]. destruct (existsb (Nat.eqb v) vars) eqn:M; [now rewrite orb_true_r|]. rewrite orb_false_r.
    destruct (Nat.eqb_spec v x) as [->|Ne].
    + apply nth_error_nth. apply (get_upd_eq h x); auto.
    + apply nth_error_nth. change (get (upd h x (bit (g x))) v = Some (nth v h n0)). rewrite get_upd_ne by auto. now apply nth_error_nth'.
Qed.
Lemma in_combinations_filter (q : nat -> bool) l : In (filter q l) (combinations l (length (filter q l))).
Proof.
  induction l as [|x l IH]; cbn [filter]; [now left|]. destruct (q x); cbn [length combinations].
  - apply in_app_iff. left. now apply in_map.
  - destruct (length (filter q l)) as [|k] eqn:E.
    + destruct (filter q l); [now left|discriminate].
    + apply in_app_iff. now right.
Qed.
Lemma in_products bs : In bs (products (length bs)).
Proof. induction bs as [|[] bs IH]; cbn; [now left|..]; apply in_app_iff; [right|left]; now apply in_map. Qed.
Lemma mem_ext vars vars' v : (In v vars <-> In v vars') -> mem v vars = mem v vars'.
Proof.
  intros H. destruct (mem v vars) eqn:E; symmetry.
  - apply mem_In, H, mem_In, E.
  - apply mem_not_In. rewrite <- H. now apply mem_not_In.
Qed.

Lemma phase3_progress nv f ord pp combos o vars g : consistent nv f -> (forall l, Permutation l (ord l)) ->
  flagged nv f o -> v_unsat (k_sum o) = unsat f (k_hd o) -> Forall (Forall (fun v => v < nv)) combos ->
  NoDup vars -> incl vars (concat combos) -> 2 <= length vars <= pp ->
  length (unsat f (with_values (k_hd o) vars g)) < length (unsat f (k_hd o)) ->
  exists o', phase3 f ord pp combos o = Some o' /\ flagged nv f o' /\
    get_summary f (k_hd o') = Some (k_sum o') /\
    length (unsat f (k_hd o')) < length (unsat f (k_hd o)).
Proof.
  intros W P Fl U Fc Nv Iv Hk Lt. unfold phase3.
  assert (Hne : unsat f (k_hd o) <> []) by (intros Q; rewrite Q in Lt; cbn in Lt; lia).
  assert (NE : nonempty (v_unsat (k_sum o)) = true) by (rewrite U; destruct (unsat f (k_hd o)); [congruence|reflexivity]).
  rewrite NE. set (pool := ord (dedup (concat combos))).
  assert (Np : NoDup pool) by (eapply Permutation_NoDup; [apply P|apply NoDup_nodup]).
  assert (Ip : forall x, In x pool <-> In x (concat combos)).
  { intros x. split; intros I.
    - apply (Permutation_in _ (Permutation_sym (P _))) in I. now apply nodup_In in I.
    - apply (Permutation_in _ (P _)). now apply nodup_In. }
  assert (Bp : forall x, In x pool -> x < nv).
  { intros x I. apply Ip, in_concat in I as (r & Ir & I). apply (proj1 (Forall_forall _ _) Fc) in Ir. apply (proj1 (Forall_forall _ _) Ir). auto. }
  set (vars' := filter (fun x => mem x vars) pool).
  assert (Pv : Permutation vars' vars).
  { apply NoDup_Permutation; [now apply NoDup_filter|exact Nv|]. intros x. unfold vars'. rewrite filter_In, mem_In. split; [tauto|]. intros I. split; auto. apply Ip, Iv, I. }
  assert (Bc : forall k vars, In vars (combinations pool k) -> Forall (fun v => v < nv) vars).
  { intros k vs I. apply in_combinations in I as [_ I]. apply Forall_forall. intros x Hx. apply Bp, I, Hx. }
  assert (Comb : forall k st vs, In vs (combinations pool k) -> unchanged nv f (k_hd o) st ->
    exists st' b, try_combination f k st vs = Some (st', b) /\ ((unchanged nv f (k_hd o) st' /\ b = false) \/ lowered nv f (k_hd o) st')).
  { intros k st vs I H. unfold try_combination.
    destruct (fold_break_either (try_assign f vs) (unchanged nv f (k_hd o)) (lowered nv f (k_hd o)) (products k) st H) as ([o2 old2] & E & H2).
    - intros s a _ Hs. destruct (try_assign_either nv f (k_hd o) vs s a) as (s' & b & E & X & _); eauto.
    - intros s a _ Hs. apply (try_assign_counted nv); eauto.
    - rewrite E. cbn [bind]. eexists _, _. split; [reflexivity|]. destruct H2 as [H2|H2]; [left|now right]. split; [exact H2|].
      destruct H2 as (_ & _ & _ & X). cbn [fst] in X. destruct (v_unsat (k_sum o2)); [congruence|reflexivity]. }
  assert (CombL : forall k st vs, In vs (combinations pool k) -> lowered nv f (k_hd o) st ->
    exists st' b, try_combination f k st vs = Some (st', b) /\ lowered nv f (k_hd o) st').
  { intros k st vs I H. unfold try_combination.
    destruct (fold_break_ok (try_assign f vs) (lowered nv f (k_hd o)) (products k) st H) as ([o2 old2] & E & H2).
    - intros s a _ Hs. apply (try_assign_counted nv); eauto.
    - rewrite E. cbn [bind]. eauto. }
  match goal with |- context [foldM ?bd ?l0 ?st0] =>
    destruct (foldM_progress bd (unchanged nv f (k_hd o)) (lowered nv f (k_hd o)) l0 st0 (length vars)) as ([o1 old1] & E & C) end.
  - split; [exact Fl|]. split; [reflexivity|]. cbn [fst snd]. rewrite U. auto.
  - apply -> in_rev. apply in_seq. lia.
  - intros st k _ Hst. apply fold_break_either; auto.
  - intros st Hst. apply (fold_break_progress _ (unchanged nv f (k_hd o)) _ _ _ vars'); auto.
    + rewrite <- (Permutation_length Pv). apply in_combinations_filter.
    + intros st' Hst'. unfold try_combination.
      assert (I' : In vars' (combinations pool (length vars))) by (rewrite <- (Permutation_length Pv); apply in_combinations_filter).
      destruct (fold_break_progress (try_assign f vars') (unchanged nv f (k_hd o)) (lowered nv f (k_hd o)) (products (length vars)) st' (map g vars'))
        as ([o2 old2] & E & H2); auto.
      * rewrite <- (Permutation_length Pv), <- (map_length g). apply in_products.
      * intros s a _ Hs. destruct (try_assign_either nv f (k_hd o) vars' s a) as (s' & b & E & X & _); eauto.
      * intros s Hs. destruct (try_assign_either nv f (k_hd o) vars' s (map g vars')) as (s' & b & E & _ & X); eauto.
        exists s', b. split; [exact E|]. apply (X (with_values (k_hd o) vars' g)).
        -- apply assign_with. destruct Fl as [-> _]. eauto.
        -- replace (with_values (k_hd o) vars' g) with (with_values (k_hd o) vars g); [exact Lt|].
           unfold with_values. apply map_ext. intros v. rewrite (mem_ext vars vars' v); [reflexivity|].
           split; apply Permutation_in; [now apply Permutation_sym|exact Pv].
      * intros s a _ Hs. apply (try_assign_counted nv); eauto.
      * rewrite E. cbn [bind]. eauto.
  - intros st k _ Hst. apply fold_break_ok; auto.
  - rewrite E. cbn [bind]. destruct C as (C1 & C2 & C3). cbn [fst snd] in *. destruct C1 as [L1 F1].
    destruct (get_summary_ok nv f (k_hd o1) W L1) as (s & Es & _). rewrite Es. cbn [bind].
    eexists; split; [reflexivity|]. unfold flagged; cbn [k_hd k_flag k_sum]. split; [auto|]. split; [auto|]. lia.
Qed.

(** If setting between two and [pp] of the listed variables in some way leaves fewer violated
    clauses, the third stage leaves fewer. *)
Theorem C71_combination :
  forall (nv : nat) (f : formula) (o : ks_obj) (ord : list nat -> list nat) (pp : nat) (combos : list (list nat))
         (vars : list nat) (g : nat -> bool) (n n' : nat),
    consistent nv f -> length (k_hd o) = nv -> get_summary f (k_hd o) = Some (k_sum o) -> k_flag o = flag_of (k_sum o) ->
    (forall l, Permutation l (ord l)) -> Forall (Forall (fun v => v < nv)) combos ->
    NoDup vars -> incl vars (concat combos) -> 2 <= length vars <= pp ->
    violations f (k_hd o) n -> violations f (with_values (k_hd o) vars g) n' -> n' < n ->
    exists o3 n3, phase3 f ord pp combos o = Some o3 /\ violations f (k_hd o3) n3 /\ n3 < n /\ get_summary f (k_hd o3) = Some (k_sum o3).
Proof.
  intros nv f o ord pp combos vars g n n' W L S Fl P Fc Nv Iv Hk Vn Vn' Lt.
  pose proof (summary_unsat nv f (k_hd o) (k_sum o) W L S) as U.
  apply (violations_unsat nv) in Vn; auto. apply (violations_unsat nv) in Vn'; [|auto|rewrite with_values_length; auto].
  assert (F : flagged nv f o) by (split; [auto|rewrite Fl; apply flag_of_unsat; auto]).
  destruct (phase3_progress nv f ord pp combos o vars g W P F U Fc Nv Iv Hk) as (o3 & E & [L3 _] & S3 & B); [lia|].
  exists o3, (length (unsat f (k_hd o3))). split; [exact E|]. split; [apply (violations_unsat nv); auto|]. split; [lia|exact S3].
Qed.

(** ** A single violated clause *)
Lemma unsat_truthy f h h' : (forall v, truthy (nth v h n0) = truthy (nth v h' n0)) -> unsat f h = unsat f h'.
Proof.
  intros H. unfold unsat. apply filter_ext. intros c. f_equal. induction (lits f c) as [|e l IH]; cbn [existsb]; auto.
  rewrite IH. f_equal. unfold is_true. now rewrite H.
Qed.
Lemma phase2_one_row f ord o combos c cv o' combos' : get (y_conx f) c = Some cv ->
  phase2_one f ord (o, combos) c = Some (o', combos') -> In cv combos'.
Proof.
  intros Ec E. unfold phase2_one in E. rewrite Ec in E. cbn [bind] in E.
  destruct (of_interest f (k_sum o) cv) as [ints|]; [|discriminate]. cbn [bind] in E.
  destruct (mapM (overlaps f c cv) ints) as [parts|]; [|discriminate]. cbn [bind] in E.
  destruct (fold_break _ _ _) as [[o2 old]|]; [|discriminate]. cbn [bind] in E. injection E as <- <-.
  apply in_or_app. right. now left.
Qed.
Lemma row_var nv f c cv v t : consistent nv f -> get (y_conx f) c = Some cv -> in_clause f c v t -> In v cv.
Proof.
  intros W Ec (j & E & _). unfold get2 in E. rewrite Ec in E. cbn [bind] in E. now apply nth_error_In in E.
Qed.

(** One clause is violated after the hard decision.  If setting at most [pp] (at least two) of its
    variables in some way makes all clauses true, post-processing ends with all clauses true. *)
Theorem C71_one_clause :
  forall (nv : nat) (f : formula) (thr : num) (intrinsic : list num) (ord2 ord3 : list nat -> list nat) (pp : nat)
         (o : ks_obj) (c : nat) (vars : list nat) (g : nat -> bool),
    consistent nv f -> length intrinsic = nv ->
    (forall l, Permutation l (ord2 l)) -> (forall l, Permutation l (ord3 l)) ->
    hard_decision_analysis f thr intrinsic = Some o ->
    (forall c', c' < y_nc f -> (clause_true f (k_hd o) c' <-> c' <> c)) -> c < y_nc f ->
    (exists v v' t t', v <> v' /\ in_clause f c v t /\ in_clause f c v' t') ->
    NoDup vars -> (forall v, In v vars -> exists t, in_clause f c v t) -> length vars <= pp -> 2 <= pp ->
    (forall c', c' < y_nc f -> clause_true f (with_values (k_hd o) vars g) c') ->
    exists o', post_processing f ord2 ord3 pp o = Some o' /\ k_flag o' = true /\ v_unsat (k_sum o') = [] /\
      forall c', c' < y_nc f -> clause_true f (k_hd o') c'.
Proof.
  intros nv f thr intr ord2 ord3 pp o c vars g W L P2 P3 Ho H1 Hc (y1 & y2 & t1 & t2 & Hy & I1 & I2) Nv Iv Lp Hpp Hall.
  assert (L' : length (map (py_decide thr) intr) = nv) by (rewrite map_length; auto).
  destruct (get_summary_ok nv f _ W L') as (s & E & _ & _ & _ & U).
  unfold hard_decision_analysis in Ho. rewrite E in Ho. cbn [bind] in Ho. injection Ho as <-. cbn [k_hd] in *.
  set (h := map (py_decide thr) intr) in *.
  set (o := {| k_hd := h; k_sum := s; k_flag := flag_of s |}).
  assert (Uc : unsat f h = [c]).
  { assert (Pc : Permutation (unsat f h) [c]).
    { apply NoDup_Permutation; [apply NoDup_filter, seq_NoDup|repeat constructor; auto|].
      intros c'. rewrite (unsat_iff nv) by auto. cbn [In]. split.
      - intros [A B]. left. destruct (Nat.eq_dec c' c) as [|Ne]; [congruence|]. exfalso. apply B, H1; auto.
      - intros [<- | []]. split; auto. intros T. apply (H1 c Hc) in T; auto. }
    apply Permutation_sym, Permutation_length_1_inv in Pc. exact Pc. }
  assert (Hg : unsat f (with_values h vars g) = []).
  { destruct (unsat f (with_values h vars g)) as [|x l] eqn:Q; auto. exfalso.
    assert (I : In x (unsat f (with_values h vars g))) by (rewrite Q; now left).
    apply (unsat_iff nv) in I as [A B]; [|auto|now rewrite with_values_length]. apply B, Hall, A. }
  destruct (row_at nv f c W Hc) as (cv & Ec & Fcv). change (get (y_conx f) c = Some cv) in Ec.
  (* two variables or more *)
  assert (Pad : exists vars' g', NoDup vars' /\ incl vars' cv /\ 2 <= length vars' <= pp /\ unsat f (with_values h vars' g') = []).
  { assert (Ivc : incl vars cv) by (intros v I; destruct (Iv v I) as (t & It); eapply row_var; eauto).
    destruct vars as [|x [|x2 vars]].
    - exfalso. assert (Q : with_values h [] g = h).
      { apply (nth_ext _ _ n0 n0); [apply with_values_length|]. intros v Hv. rewrite with_values_length in Hv. now rewrite with_values_nth. }
      rewrite Q, Uc in Hg. discriminate.
    - assert (Y : exists y t, y <> x /\ in_clause f c y t).
      { destruct (Nat.eq_dec y1 x) as [->|]; [exists y2, t2|exists y1, t1]; auto. }
      destruct Y as (y & t & Nyx & It).
      exists [x; y], (fun v => if v =? x then g x else truthy (nth v h n0)). split; [|split; [|split]].
      + constructor; [intros [Q|[]]; congruence|repeat constructor; auto].
      + intros v [<- |[<- |[]]]; [apply Ivc; now left|eapply row_var; eauto].
      + cbn. lia.
      + transitivity (unsat f (with_values h [x] g)); [|exact Hg]. apply unsat_truthy. intros v. destruct (Nat.lt_ge_cases v (length h)) as [Hv|Hv].
        2:{ rewrite !nth_overflow; auto; now rewrite with_values_length. }
        rewrite !with_values_nth by auto. unfold mem. cbn [existsb]. rewrite !orb_false_r.
        destruct (Nat.eqb_spec v x) as [->|Nx]; cbn [orb]; [reflexivity|].
        destruct (Nat.eqb_spec v y) as [->|Ny]; [|reflexivity]. destruct (truthy (nth y h n0)); reflexivity.
    - exists (x :: x2 :: vars), g. split; [exact Nv|]. split; [exact Ivc|]. split; [cbn in *; lia|exact Hg]. }
  destruct Pad as (vars' & g' & Nv' & Iv' & Lv' & Hg').
  assert (Fl : flagged nv f o) by (split; [exact L'|apply flag_of_unsat; auto]).
  (* the first stage does nothing *)
  assert (E1 : phase1 f o = Some o).
  { unfold phase1, common_elements. cbn [k_sum o]. rewrite U, Uc. cbn [foldM filter length]. rewrite (literals_ok nv) by auto. cbn [bind].
    rewrite Nat.eqb_refl. cbn [negb foldM bind fold_break]. cbn [k_hd o]. rewrite E. reflexivity. }
  unfold post_processing. rewrite E1. cbn [bind].
  (* the second one repairs or does nothing *)
  unfold phase2. cbn [k_sum o]. rewrite U, Uc. cbn [foldM].
  destruct (phase2_one_ok nv f ord2 o [] c (fun st => unchanged nv f h st \/ lowered nv f h st)) as (o2 & cb & E2 & Fc & old & J); auto.
  { left. split; [exact Fl|]. split; [reflexivity|]. cbn [fst snd k_sum o]. rewrite U. split; [reflexivity|]. rewrite Uc. discriminate. }
  { intros st var val Hv [J|J].
    - destruct (try_flip_either nv f h st var val W Hv) as (st' & b & E' & [[X _]|X] & _); eauto 6. rewrite Uc. discriminate.
    - destruct (try_flip_counted nv f _ st var val W Hv J) as (st' & b & E' & X). eauto 6. }
  fold o. rewrite E2. cbn [bind]. pose proof (phase2_one_row _ _ _ _ _ _ _ _ Ec E2) as Icv.
  assert (Fl2 : flagged nv f o2) by (destruct J as [J|J]; apply J).
  destruct (get_summary_ok nv f (k_hd o2) W (proj1 Fl2)) as (s2 & Es2 & _ & _ & _ & U2). rewrite Es2. cbn [bind].
  set (o3 := {| k_hd := k_hd o2; k_sum := s2; k_flag := k_flag o2 |}).
  assert (Fl3 : flagged nv f o3) by exact Fl2.
  assert (End : exists o', phase3 f ord3 pp cb o3 = Some o' /\ flagged nv f o' /\ get_summary f (k_hd o') = Some (k_sum o') /\ unsat f (k_hd o') = []).
  { destruct J as [(_ & Eh & _)|(_ & Eo & B)].
    - cbn [fst] in Eh. destruct (phase3_progress nv f ord3 pp cb o3 vars' g') as (o' & E3 & F3 & S3 & B3); auto.
      { intros x I. apply in_concat. exists cv. auto. }
      { cbn [k_hd o3]. rewrite Eh, Hg', Uc. auto. }
      exists o'. do 3 (split; [assumption|]). cbn [k_hd o3] in B3. rewrite Eh, Uc in B3. destruct (unsat f (k_hd o')); [auto|cbn in B3; lia].
    - destruct (phase3_ok nv f ord3 pp cb o3) as (o' & E3 & F3 & S3 & B3); auto.
      exists o'. do 3 (split; [assumption|]). cbn [k_hd o3] in B3. cbn [fst snd] in Eo, B. rewrite Uc in B. cbn in B.
      destruct (unsat f (k_hd o')); [auto|cbn in B3; lia]. }
  destruct End as (o' & E3 & [L3 F3] & S3 & Z). exists o'. split; [exact E3|]. split.
  { rewrite F3. unfold no_unsat. now rewrite Z. }
  split; [rewrite (summary_unsat nv f (k_hd o') (k_sum o') W L3 S3); exact Z|].
  intros c' Hc'. destruct (existsb (is_true (k_hd o')) (lits f c')) eqn:B.
  - apply existsb_exists in B as ((v & t) & B1 & B2). apply in_lits in B1. exists v, t. split; auto. apply (is_true_iff nv f _ c'); auto.
  - exfalso. assert (K : In c' (unsat f (k_hd o'))) by (apply filter_In; split; [apply in_seq; lia|now rewrite B]). rewrite Z in K. destruct K.
Qed.

(** ** Second stage *)
Lemma forallb_false {A} (g : A -> bool) l : forallb g l = false <-> exists x, In x l /\ g x = false.
Proof.
  induction l as [|a l IH]; cbn [forallb]; [split; [discriminate|intros (x & [] & _)]|].
  rewrite andb_false_iff, IH. split.
  - intros [H|(x & I & H)]; [exists a|exists x]; split; auto; [now left|now right].
  - intros (x & [<-|I] & H); eauto.
Qed.
Lemma mapM_reach {A B} (g : A -> option B) l r : mapM g l = Some r -> forall a, In a l -> exists b, In b r /\ g a = Some b.
Proof.
  revert r. induction l as [|x l IH]; intros r E a []; cbn [mapM] in E; destruct (g x) as [y|] eqn:Ex; try discriminate; cbn [bind] in E;
    destruct (mapM g l) as [r'|] eqn:El; try discriminate; cbn [bind] in E; injection E as <-.
  - subst x. exists y. split; [now left|exact Ex].
  - destruct (IH r' eq_refl a H) as (b & Ib & Eb). exists b. split; [now right|exact Eb].
Qed.
Lemma index_of_nth x l i : index_of x l = Some i -> nth_error l i = Some x.
Proof.
  revert i. induction l as [|a l IH]; intros i E; [discriminate|]. cbn [index_of] in E.
  destruct (Nat.eqb_spec a x) as [->|N]; [injection E as <-; reflexivity|].
  destruct (index_of x l) as [k|]; [|discriminate]. cbn [bind] in E. injection E as <-. cbn. auto.
Qed.
Lemma type_in_clause f c x t : type_in f c x = Some t -> in_clause f c x t.
Proof.
  unfold type_in, in_clause, get2. destruct (get (y_conx f) c) as [r|]; [|discriminate]. destruct (get (y_types f) c) as [ts|]; [|discriminate].
  cbn [bind]. destruct (index_of x r) as [i|] eqn:E; [|discriminate]. cbn [bind]. intros H. exists i. split; [|exact H]. now apply index_of_nth.
Qed.
Lemma clause_of_row nv f c r x : consistent nv f -> nth_error (y_conx f) c = Some r -> In x r -> exists t, in_clause f c x t.
Proof.
  intros W Er Hx. destruct (c_rows _ _ W _ _ Er) as (ts & Et & Lt). apply In_nth_error in Hx as [j Hj].
  assert (Lj : j < length ts) by (rewrite Lt; apply nth_error_Some; congruence).
  destruct (get_lt ts j Lj) as [t Ht]. exists t, j. unfold get2, get. rewrite Er, Et. auto.
Qed.
(** clauses made true only by variables of [c], if at all, that share variables with [c] but not all of them *)
Definition leans_on (f : formula) (h : list num) (c i : nat) : Prop :=
  i < y_nc f /\
  (exists w t t', in_clause f c w t /\ in_clause f i w t') /\
  (exists w t, in_clause f c w t /\ forall t', ~ in_clause f i w t') /\
  (forall w t, in_clause f i w t -> lit_true h w t -> exists t', in_clause f c w t').
Lemma of_interest_iff nv f h s c cv l i : consistent nv f -> length h = nv -> get_summary f h = Some s ->
  nth_error (y_conx f) c = Some cv -> of_interest f s cv = Some l -> (In i l <-> leans_on f h c i).
Proof.
  intros W L Es Ec El. destruct (get_summary_ok nv f h W L) as (s0 & E0 & Ac & Inac & _ & _). rewrite Es in E0. injection E0 as <-.
  unfold of_interest in El. rewrite (mapM_Some _ (fun i => (i, outside_true s cv (lits f i)))) in El.
  2:{ intros k Hk. apply filter_In in Hk as [Hk _]. apply in_seq in Hk. rewrite (c_conx _ _ W) in Hk. rewrite (literals_ok nv) by (auto; lia). auto. }
  cbn [bind] in El. injection El as <-.
  assert (Row : forall k, k < y_nc f -> nth_error (y_conx f) k = Some (nth k (y_conx f) [])) by (intros k Hk; apply nth_error_nth'; rewrite (c_conx _ _ W); auto).
  assert (InRow : forall k r w, nth_error (y_conx f) k = Some r -> (In w r <-> exists t, in_clause f k w t)).
  { intros k r w Er. split; [eapply clause_of_row; eauto|]. intros (t & It). eapply row_var; eauto. }
  assert (Out : forall k, outside_true s cv (lits f k) = 0 <-> (forall w t, in_clause f k w t -> lit_true h w t -> exists t', in_clause f c w t')).
  { intros k. unfold outside_true. rewrite length_zero_iff_nil. split.
    - intros Z w t It Lt. destruct (mem w cv) eqn:M; [apply mem_In, (InRow c) in M; auto|]. exfalso.
      enough (X : In (w, t) []) by destruct X. rewrite <- Z. apply filter_In. split; [now apply in_lits|]. cbn [fst snd]. rewrite M. cbn [negb andb].
      pose proof (c_used _ _ W _ _ _ It) as Hu.
      destruct Lt as (x & Ex & [[-> Hx]|[-> Hx]]); cbn [Z.eqb Pos.eqb andb orb].
      + assert (A : mem w (v_active s) = true) by (apply mem_In; rewrite Ac; apply filter_In; split; auto; apply truthy_iff; rewrite (nth_error_nth _ _ _ Ex); auto).
        now rewrite A.
      + apply mem_In. rewrite Inac. apply filter_In. split; auto. rewrite (nth_error_nth _ _ _ Ex), Hx. reflexivity.
    - intros H. destruct (filter _ (lits f k)) as [|[w t] r] eqn:Q; auto. exfalso.
      assert (X : In (w, t) ((w, t) :: r)) by now left. rewrite <- Q in X. apply filter_In in X as [X1 X2]. apply in_lits in X1. cbn [fst snd] in X2.
      apply andb_true_iff in X2 as [X2 X3]. apply negb_true_iff, mem_not_In in X2. apply X2. apply (InRow c); auto. apply (H w t); auto.
      pose proof (c_used _ _ W _ _ _ X1) as Hu. pose proof (proj1 (Forall_forall _ _) (c_range _ _ W) w Hu) as Hr. cbn beta in Hr.
      exists (nth w h n0). split; [apply nth_error_nth'; lia|].
      apply orb_true_iff in X3 as [X3|X3]; apply andb_true_iff in X3 as [X3 X4]; apply Z.eqb_eq in X3; subst t; apply mem_In in X4.
      + left. split; auto. rewrite Ac in X4. apply filter_In in X4 as [_ X4]. now apply truthy_iff.
      + right. split; auto. rewrite Inac in X4. apply filter_In in X4 as [_ X4]. apply negb_true_iff in X4. now apply falsy_iff. }
  rewrite in_map_iff. unfold leans_on. split.
  - intros ((k & z) & Q & Hk). cbn in Q. subst k. apply filter_In in Hk as [Hk Z]. cbn [snd] in Z. apply in_map_iff in Hk as (k & Q & Hk). injection Q as -> <-.
    apply filter_In in Hk as [Hk Inv]. apply in_seq in Hk. rewrite (c_conx _ _ W) in Hk. assert (Hi : i < y_nc f) by lia.
    apply andb_true_iff in Inv as [I1 I2]. apply existsb_exists in I1 as (w & W1 & W2). apply mem_In in W2.
    split; [exact Hi|]. split; [|split].
    + apply (InRow c) in W1 as (t & T1); auto. apply (InRow i) in W2 as (t' & T2); auto. eauto.
    + apply negb_true_iff in I2. apply forallb_false in I2 as (w2 & V1 & V2). apply mem_not_In in V2. apply (InRow c) in V1 as (t & T1); auto.
      exists w2, t. split; auto. intros t' T'. apply V2. apply (InRow i); eauto.
    + apply Out. now apply Nat.eqb_eq.
  - intros (Hi & (w & t & t' & T1 & T2) & (w2 & u & U1 & U2) & Ho). exists (i, outside_true s cv (lits f i)). split; [reflexivity|].
    apply filter_In. split; [|apply Nat.eqb_eq, Out; exact Ho]. apply in_map_iff. exists i. split; [reflexivity|]. unfold investigated.
    apply filter_In. split; [apply in_seq; rewrite (c_conx _ _ W); lia|]. apply andb_true_iff. split.
    + apply existsb_exists. exists w. split; [apply (InRow c); eauto|]. apply mem_In. apply (InRow i); eauto.
    + apply negb_true_iff, forallb_false. exists w2. split; [apply (InRow c); eauto|]. apply mem_not_In. intros X. apply (InRow i) in X as (t2 & X); auto. apply (U2 t2 X).
Qed.
Lemma overlaps_common nv f c cv i p v t : consistent nv f -> nth_error (y_conx f) c = Some cv -> overlaps f c cv i = Some p ->
  in_clause f c v t -> in_clause f i v t -> (forall t', in_clause f c v t' -> t' = t) -> (forall t', in_clause f i v t' -> t' = t) ->
  In v (snd (fst p)).
Proof.
  intros W Ec E Ic Ii Uc Ui. unfold overlaps in E. destruct (get (y_conx f) i) as [row|] eqn:Er; [|discriminate]. cbn [bind] in E.
  match type of E with context [mapM ?g ?l0] => destruct (mapM g l0) as [keep|] eqn:Ek; [|discriminate] end.
  cbn [bind] in E. injection E as <-. cbn [fst snd]. apply in_map_iff. exists (v, true). split; [reflexivity|]. apply filter_In. split; [|reflexivity].
  assert (Iv : In v (filter (fun x => mem x cv) row)).
  { apply filter_In. split; [apply (row_var nv f i row v t); auto|]. apply mem_In. eapply row_var; eauto. }
  destruct (mapM_reach _ _ _ Ek v Iv) as (b & Ib & Eb).
  destruct (type_in f i v) as [a|] eqn:Ea; [|discriminate]. destruct (type_in f c v) as [a'|] eqn:Ea'; [|discriminate]. cbn [bind] in Eb. injection Eb as <-.
  apply type_in_clause in Ea, Ea'. rewrite (Ui _ Ea), (Uc _ Ea'), Z.eqb_refl in Ib. exact Ib.
Qed.
Lemma filter_some {A} (q : A -> bool) l j v : nth_error l j = Some v -> q v = true -> 1 <= length (filter q l).
Proof.
  intros E Q. assert (I : In v (filter q l)) by (apply filter_In; split; auto; eapply nth_error_In; eauto).
  destruct (filter q l); [destruct I|cbn; lia].
Qed.
Lemma filter_single {A} (q : A -> bool) l j j' v : length (filter q l) = 1 -> q v = true -> nth_error l j = Some v -> nth_error l j' = Some v -> j = j'.
Proof.
  revert j j'. induction l as [|a l IH]; intros j j' L Q E E'; [destruct j; discriminate|]. cbn [filter] in L.
  destruct j as [|j], j' as [|j']; cbn in E, E'; auto.
  - injection E as ->. rewrite Q in L. cbn in L. pose proof (filter_some q l j' v E' Q). lia.
  - injection E' as ->. rewrite Q in L. cbn in L. pose proof (filter_some q l j v E Q). lia.
  - f_equal. apply IH; auto. pose proof (filter_some q l j v E Q). destruct (q a); cbn in L; lia.
Qed.
Lemma overlaps_alone nv f c cv i p v : consistent nv f -> nth_error (y_conx f) c = Some cv -> overlaps f c cv i = Some p -> In v (snd p) ->
  (exists t, in_clause f i v t) /\ (forall t t', in_clause f i v t -> in_clause f i v t' -> t = t') /\
  forall w t t', in_clause f c w t -> in_clause f i w t' -> w = v.
Proof.
  intros W Ec E Hv. unfold overlaps in E. destruct (get (y_conx f) i) as [row|] eqn:Er; [|discriminate]. cbn [bind] in E.
  match type of E with context [mapM ?g ?l0] => destruct (mapM g l0) as [keep|]; [|discriminate] end.
  cbn [bind] in E. injection E as <-. cbn [snd] in Hv. destruct (Nat.eqb_spec (length (filter (fun x => mem x cv) row)) 1) as [L|]; [|destruct Hv].
  split; [apply filter_In in Hv as [Hv _]; eapply clause_of_row; eauto|]. split.
  { apply filter_In in Hv as [_ Q]. intros t t' (j & A & B) (j' & A' & B'). unfold get2 in A, A'. rewrite Er in A, A'. cbn [bind] in A, A'.
    rewrite (filter_single _ row j j' v L Q A A') in B. congruence. }
  intros w t t' Tc Ti.
  assert (Iw : In w (filter (fun x => mem x cv) row)).
  { apply filter_In. split; [apply (row_var nv f i row w t'); auto|]. apply mem_In. eapply row_var; eauto. }
  destruct (filter (fun x => mem x cv) row) as [|a [|b l]]; [discriminate| |discriminate]. destruct Hv as [<-|[]], Iw as [<-|[]]. reflexivity.
Qed.

(** One clause [c] is violated after the hard decision.  If making one of its literals true makes all
    clauses true, and the literal also occurs in a clause that leans on [c], then post-processing ends
    with all clauses true, even if the third stage is switched off ([pp] = 0). *)
Theorem C71_neighbour :
  forall (nv : nat) (f : formula) (thr : num) (intrinsic : list num) (ord2 ord3 : list nat -> list nat) (pp : nat)
         (o : ks_obj) (c i v : nat) (t : Z),
    consistent nv f -> length intrinsic = nv ->
    (forall l, Permutation l (ord2 l)) -> (forall l, Permutation l (ord3 l)) ->
    hard_decision_analysis f thr intrinsic = Some o ->
    (forall c', c' < y_nc f -> (clause_true f (k_hd o) c' <-> c' <> c)) -> c < y_nc f ->
    in_clause f c v t -> (forall t', in_clause f c v t' -> t' = t) ->
    in_clause f i v t -> (forall t', in_clause f i v t' -> t' = t) -> leans_on f (k_hd o) c i ->
    (forall c', c' < y_nc f -> clause_true f (upd (k_hd o) v (if (t =? 1)%Z then n1 else n0)) c') ->
    exists o', post_processing f ord2 ord3 pp o = Some o' /\ k_flag o' = true /\ v_unsat (k_sum o') = [] /\
      forall c', c' < y_nc f -> clause_true f (k_hd o') c'.
Proof.
  intros nv f thr intr ord2 ord3 pp o c i v t W L P2 P3 Ho H1 Hc Icv Uc Iiv Ui Li Hall.
  assert (L' : length (map (py_decide thr) intr) = nv) by (rewrite map_length; auto).
  destruct (get_summary_ok nv f _ W L') as (s & E & _ & _ & _ & U).
  unfold hard_decision_analysis in Ho. rewrite E in Ho. cbn [bind] in Ho. injection Ho as <-. cbn [k_hd] in *.
  set (h := map (py_decide thr) intr) in *.
  set (o := {| k_hd := h; k_sum := s; k_flag := flag_of s |}).
  assert (Un : unsat f h = [c]).
  { assert (Pc : Permutation (unsat f h) [c]).
    { apply NoDup_Permutation; [apply NoDup_filter, seq_NoDup|repeat constructor; auto|].
      intros c'. rewrite (unsat_iff nv) by auto. cbn [In]. split.
      - intros [A B]. left. destruct (Nat.eq_dec c' c) as [|Ne]; [congruence|]. exfalso. apply B, H1; auto.
      - intros [<- | []]. split; auto. intros T. apply (H1 c Hc) in T; auto. }
    apply Permutation_sym, Permutation_length_1_inv in Pc. exact Pc. }
  assert (Hg : unsat f (upd h v (if (t =? 1)%Z then n1 else n0)) = []).
  { destruct (unsat f (upd h v _)) as [|x l] eqn:Q; auto. exfalso.
    assert (I : In x (unsat f (upd h v (if (t =? 1)%Z then n1 else n0)))) by (rewrite Q; now left).
    apply (unsat_iff nv) in I as [A B]; [|auto|now rewrite upd_length]. apply B, Hall, A. }
  assert (Fl : flagged nv f o) by (split; [exact L'|apply flag_of_unsat; auto]).
  assert (E1 : phase1 f o = Some o).
  { unfold phase1, common_elements. cbn [k_sum o]. rewrite U, Un. cbn [foldM filter length]. rewrite (literals_ok nv) by auto. cbn [bind].
    rewrite Nat.eqb_refl. cbn [negb foldM bind fold_break]. cbn [k_hd o]. rewrite E. reflexivity. }
  assert (E2 : exists o2 cb, phase2_one f ord2 (o, []) c = Some (o2, cb) /\ Forall (Forall (fun v => v < nv)) cb /\ exists old, lowered nv f h (o2, old)).
  { unfold phase2_one. destruct (row_at nv f c W Hc) as (cv & Ec & Fcv). unfold get. rewrite Ec. cbn [bind].
    destruct (of_interest_ok nv f (k_sum o) cv W) as (ints & Ei & Fi). rewrite Ei. cbn [bind].
    pose proof (fun k => of_interest_iff nv f h s c cv ints k W L' E Ec Ei) as Iff.
    destruct (mapM_all (overlaps f c cv) ints) as (parts & Ep & _ & Ip).
    { intros k Hk. destruct (overlaps_ok nv f c cv k) as (p & Hp & _); eauto. apply (proj1 (Forall_forall _ _) Fi); auto. }
    rewrite Ep. cbn [bind].
    assert (Fp : Forall (fun p => Forall (fun v => v < nv) (fst (fst p)) /\ incl (snd (fst p)) cv) parts).
    { apply Forall_forall. intros p Hp. apply Ip in Hp. destruct Hp as (k & Hk & Hp).
      destruct (overlaps_ok nv f c cv k) as (p' & Hp' & K); auto; [apply (proj1 (Forall_forall _ _) Fi); auto|]. rewrite Hp' in Hp. injection Hp as <-. auto. }
    assert (Pool : forall x, In x (ord2 (filter (fun x => negb (mem x (concat (map snd parts)))) (dedup (concat (map (fun p => snd (fst p)) parts))))) -> In x cv).
    { intros x Hx. apply (Permutation_in _ (Permutation_sym (P2 _))) in Hx. apply filter_In in Hx as [Hx _]. apply nodup_In in Hx. apply in_concat in Hx as (l & Hl & Hx).
      apply in_map_iff in Hl as (p & <- & Hp). destruct (proj1 (Forall_forall _ _) Fp p Hp) as [_ K]. auto. }
    assert (Iv : In v (ord2 (filter (fun x => negb (mem x (concat (map snd parts)))) (dedup (concat (map (fun p => snd (fst p)) parts)))))).
    { apply (Permutation_in _ (P2 _)). apply filter_In. split.
      - apply nodup_In, in_concat. apply Iff in Li. destruct (overlaps_ok nv f c cv i) as (p & Hp & _); auto; [apply (proj1 (Forall_forall _ _) Fi); auto|].
        exists (snd (fst p)). split; [apply in_map_iff; exists p; split; auto; apply Ip; eauto|]. eapply overlaps_common; eauto.
      - apply negb_true_iff, mem_not_In. intros X. apply in_concat in X as (l & Hl & X). apply in_map_iff in Hl as (p & <- & Hp). apply Ip in Hp as (j & Ij & Hp).
        destruct (overlaps_alone nv f c cv j p v W Ec Hp X) as ((t' & T') & Uj & Al). apply Iff in Ij. destruct Ij as (Bj & _ & (w0 & u0 & A0 & B0) & Out).
        assert (Nj : j <> c) by (intros ->; apply (B0 u0 A0)). apply (H1 j Bj) in Nj as (w & u & A & B). destruct (Out w u A B) as (u1 & A1).
        assert (w = v) by (eapply Al; eauto). subst w. destruct (Hall j Bj) as (x & ux & Ax & y & Ey & Bx).
        destruct (Nat.eq_dec x v) as [->|Nx].
        2:{ apply Nx. unfold get in *. change (get (upd h v (if (t =? 1)%Z then n1 else n0)) x = Some y) in Ey. rewrite get_upd_ne in Ey by auto.
            destruct (Out x ux Ax) as (u2 & A2); [exists y; auto|]. eapply Al; eauto. }
        rewrite (Uj ux u Ax A) in Bx.
        assert (Nt : u <> t) by (intros ->; apply (H1 c Hc); [exists v, t; auto|reflexivity]).
        change (get (upd h v (if (t =? 1)%Z then n1 else n0)) v = Some y) in Ey. rewrite get_upd_eq in Ey. 2:{ destruct B as (b & Eb & _). apply nth_error_Some. congruence. }
        injection Ey as <-. destruct (c_sign _ _ W _ _ _ Icv) as [-> | ->]; cbn in Bx; destruct Bx as [[-> Bx]|[-> Bx]]; try congruence; discriminate Bx. }
    match goal with |- context [fold_break ?bd ?l0 ?st0] =>
      destruct (fold_break_progress bd (unchanged nv f h) (lowered nv f h) l0 st0 v) as ([o' old'] & E' & C) end; auto.
    - split; [exact Fl|]. split; [reflexivity|]. cbn [fst snd k_sum o]. rewrite U, Un. split; [reflexivity|discriminate].
    - intros st x Hx Hst. apply Pool in Hx. destruct (type_in_ok nv f c cv x W Hc Ec Hx) as [t0 ->]. cbn [bind].
      destruct (try_flip_either nv f h st x (if (t0 =? 1)%Z then n1 else n0)) as (st' & b & E' & H & _); eauto.
      { apply (proj1 (Forall_forall _ _) Fcv); auto. } { rewrite Un. discriminate. }
    - intros st Hst. assert (Hx : In v cv) by (eapply row_var; eauto). destruct (type_in_ok nv f c cv v W Hc Ec Hx) as [t0 Et]. rewrite Et. cbn [bind].
      apply type_in_clause, Uc in Et. subst t0.
      destruct (try_flip_either nv f h st v (if (t =? 1)%Z then n1 else n0)) as (st' & b & E' & _ & H); eauto.
      { apply (proj1 (Forall_forall _ _) Fcv); auto. } { rewrite Un. discriminate. }
      exists st', b. split; [exact E'|]. apply H. rewrite Hg, Un. auto.
    - intros st x Hx Hst. apply Pool in Hx. destruct (type_in_ok nv f c cv x W Hc Ec Hx) as [t0 ->]. cbn [bind].
      apply (try_flip_counted nv); auto. apply (proj1 (Forall_forall _ _) Fcv); auto.
    - rewrite E'. cbn [bind]. eexists _, _. split; [reflexivity|]. split; [|eauto].
      cbn [app]. constructor; auto. apply Forall_forall. intros r Hr. apply in_map_iff in Hr as (p & <- & Hp). apply (proj1 (Forall_forall _ _) Fp p Hp). }
  destruct E2 as (o2 & cb & E2 & Fc & old & Fl2 & Eo & B). cbn [fst snd] in *.
  unfold post_processing. rewrite E1. cbn [bind]. unfold phase2. cbn [k_sum o]. rewrite U, Un. cbn [foldM]. fold o. rewrite E2. cbn [bind].
  destruct (get_summary_ok nv f (k_hd o2) W (proj1 Fl2)) as (s2 & Es2 & _ & _ & _ & U2). rewrite Es2. cbn [bind].
  destruct (phase3_ok nv f ord3 pp cb {| k_hd := k_hd o2; k_sum := s2; k_flag := k_flag o2 |}) as (o' & E3 & [L3 F3] & S3 & B3); auto.
  cbn [k_hd] in B3. rewrite Un in B. cbn in B. assert (Z : unsat f (k_hd o') = []) by (destruct (unsat f (k_hd o')); [auto|cbn in B3; lia]).
  exists o'. split; [exact E3|]. split; [rewrite F3; unfold no_unsat; now rewrite Z|].
  split; [rewrite (summary_unsat nv f (k_hd o') (k_sum o') W L3 S3); exact Z|].
  intros c' Hc'. destruct (existsb (is_true (k_hd o')) (lits f c')) eqn:Bx.
  - apply existsb_exists in Bx as ((x & tx) & B1 & B2). apply in_lits in B1. exists x, tx. split; auto. apply (is_true_iff nv f _ c'); auto.
  - exfalso. assert (K : In c' (unsat f (k_hd o'))) by (apply filter_In; split; [apply in_seq; lia|now rewrite Bx]). rewrite Z in K. destruct K.
Qed.

(** ** What the second stage may change *)
Lemma fold_break_first {S A} (body : S -> A -> option (S * bool)) (same : S -> Prop) (found : A -> S -> Prop) l s :
  same s -> (forall s a, In a l -> same s -> exists s' b, body s a = Some (s', b) /\ ((same s' /\ b = false) \/ (found a s' /\ b = true))) ->
  exists s', fold_break body l s = Some s' /\ (same s' \/ exists a, In a l /\ found a s').
Proof.
  revert s. induction l as [|a l IH]; intros s Hs Hb; cbn [fold_break]; [eauto|].
  destruct (Hb s a (or_introl eq_refl) Hs) as (s' & b & E & [(Hs' & ->)|(Hf & ->)]); rewrite E; cbn [bind].
  - destruct (IH s' Hs') as (s2 & E2 & [H|(a2 & I & H)]); eauto 6; [|exists s2; split; auto; right; exists a2; split; auto; now right].
    intros; apply Hb; auto. now right.
  - exists s'. split; auto. right. exists a. split; auto. now left.
Qed.
Lemma overlaps_found nv f c cv i p v : consistent nv f -> nth_error (y_conx f) c = Some cv -> overlaps f c cv i = Some p -> In v (snd (fst p)) ->
  exists t, in_clause f c v t /\ in_clause f i v t.
Proof.
  intros W Ec E Hv. unfold overlaps in E. destruct (get (y_conx f) i) as [row|] eqn:Er; [|discriminate]. cbn [bind] in E.
  match type of E with context [mapM ?g ?l0] => destruct (mapM g l0) as [keep|] eqn:Ek; [|discriminate] end.
  cbn [bind] in E. injection E as <-. cbn [fst snd] in Hv. apply in_map_iff in Hv as ((x & b) & Q & Hx). cbn in Q. subst x. apply filter_In in Hx as [Hx Hb]. cbn in Hb. subst b.
  assert (X : exists x, In x (filter (fun x => mem x cv) row) /\ (a <- type_in f i x ;; b <- type_in f c x ;; Some (x, (a =? b)%Z)) = Some (v, true)).
  { clear -Ek Hx. revert keep Ek Hx. induction (filter _ row) as [|x l IH]; intros keep Ek Hx; cbn [mapM] in Ek; [injection Ek as <-; destruct Hx|].
    match type of Ek with context [bind ?z _] => destruct z as [y|] eqn:Ey; [|discriminate] end. cbn [bind] in Ek.
    match type of Ek with context [mapM ?g l] => destruct (mapM g l) as [r|] eqn:El; [|discriminate] end. cbn [bind] in Ek. injection Ek as <-.
    destruct Hx as [->|Hx]; [exists x; split; [now left|exact Ey]|]. destruct (IH r eq_refl Hx) as (x2 & I2 & E2). exists x2. split; [now right|exact E2]. }
  destruct X as (x & _ & X). destruct (type_in f i x) as [a|] eqn:Ea; [|discriminate]. destruct (type_in f c x) as [b|] eqn:Eb; [|discriminate].
  cbn [bind] in X. injection X as -> Q. apply Z.eqb_eq in Q. subst b. apply type_in_clause in Ea, Eb. eauto.
Qed.
Lemma overlaps_single nv f c cv i p v t t' row : consistent nv f -> nth_error (y_conx f) c = Some cv -> nth_error (y_conx f) i = Some row -> NoDup row ->
  overlaps f c cv i = Some p -> in_clause f c v t -> in_clause f i v t' ->
  (forall w u u', in_clause f c w u -> in_clause f i w u' -> w = v) -> In v (snd p).
Proof.
  intros W Ec Er Nr E Ic Ii H. unfold overlaps, get in E. rewrite Er in E. cbn [bind] in E.
  match type of E with context [mapM ?g ?l0] => destruct (mapM g l0) as [keep|]; [|discriminate] end.
  cbn [bind] in E. injection E as <-. cbn [snd].
  assert (Iv : In v (filter (fun x => mem x cv) row)).
  { apply filter_In. split; [apply (row_var nv f i row v t'); auto|]. apply mem_In. eapply row_var; eauto. }
  assert (Al : forall w, In w (filter (fun x => mem x cv) row) -> w = v).
  { intros w I. apply filter_In in I as [I1 I2]. apply mem_In in I2. destruct (clause_of_row nv f i row w W Er I1) as (u' & U').
    destruct (clause_of_row nv f c cv w W Ec I2) as (u & U). eapply H; eauto. }
  assert (Nf : NoDup (filter (fun x => mem x cv) row)) by now apply NoDup_filter.
  destruct (filter (fun x => mem x cv) row) as [|a [|b l]]; [destruct Iv|exact Iv|].
  exfalso. inversion Nf as [|? ? Na _]; subst. apply Na. left. rewrite (Al a), (Al b); cbn; auto.
Qed.

(** One clause [c] is violated.  The second stage changes at most one variable.  If it changes one, all
    clauses are true afterwards, and the variable is as described above. *)
Theorem C71_neighbour_only :
  forall (nv : nat) (f : formula) (ord : list nat -> list nat) (o : ks_obj) (c : nat),
    consistent nv f -> Forall (@NoDup nat) (y_conx f) -> (forall l, Permutation l (ord l)) -> length (k_hd o) = nv ->
    get_summary f (k_hd o) = Some (k_sum o) -> k_flag o = flag_of (k_sum o) ->
    (forall c', c' < y_nc f -> (clause_true f (k_hd o) c' <-> c' <> c)) -> c < y_nc f ->
    exists o' combos, phase2 f ord o = Some (o', combos) /\
      (k_hd o' = k_hd o \/
       exists v t i, k_hd o' = upd (k_hd o) v (if (t =? 1)%Z then n1 else n0) /\
         in_clause f c v t /\ in_clause f i v t /\ leans_on f (k_hd o) c i /\
         (forall j t', leans_on f (k_hd o) c j -> in_clause f j v t' -> exists w u u', w <> v /\ in_clause f c w u /\ in_clause f j w u') /\
         forall c', c' < y_nc f -> clause_true f (k_hd o') c').
Proof.
  intros nv f ord o c W Nd P L Sm Fl H1 Hc. pose proof (summary_unsat nv f (k_hd o) (k_sum o) W L Sm) as U.
  set (h := k_hd o) in *.
  assert (Un : unsat f h = [c]).
  { assert (Pc : Permutation (unsat f h) [c]).
    { apply NoDup_Permutation; [apply NoDup_filter, seq_NoDup|repeat constructor; auto|].
      intros c'. rewrite (unsat_iff nv) by auto. cbn [In]. split.
      - intros [A B]. left. destruct (Nat.eq_dec c' c) as [|Ne]; [congruence|]. exfalso. apply B, H1; auto.
      - intros [<- | []]. split; auto. intros T. apply (H1 c Hc) in T; auto. }
    apply Permutation_sym, Permutation_length_1_inv in Pc. exact Pc. }
  unfold phase2. rewrite U, Un. cbn [foldM]. unfold phase2_one.
  destruct (row_at nv f c W Hc) as (cv & Ec & Fcv). unfold get. rewrite Ec. cbn [bind].
  destruct (of_interest_ok nv f (k_sum o) cv W) as (ints & Ei & Fi). rewrite Ei. cbn [bind].
  pose proof (fun k => of_interest_iff nv f h (k_sum o) c cv ints k W L Sm Ec Ei) as Iff.
  destruct (mapM_all (overlaps f c cv) ints) as (parts & Ep & _ & Ip).
  { intros k Hk. destruct (overlaps_ok nv f c cv k) as (p & Hp & _); eauto. apply (proj1 (Forall_forall _ _) Fi); auto. }
  rewrite Ep. cbn [bind].
  set (pool := ord _).
  assert (Pool : forall x, In x pool -> (exists i t, leans_on f h c i /\ in_clause f c x t /\ in_clause f i x t) /\
    forall j t', leans_on f h c j -> in_clause f j x t' -> exists w u u', w <> x /\ in_clause f c w u /\ in_clause f j w u').
  { intros x Hx. apply (Permutation_in _ (Permutation_sym (P _))) in Hx. apply filter_In in Hx as [Hx Hf]. apply nodup_In in Hx. apply in_concat in Hx as (l & Hl & Hx).
    apply in_map_iff in Hl as (p & <- & Hp). apply Ip in Hp as (i & Ii & Hp). destruct (overlaps_found nv f c cv i p x W Ec Hp Hx) as (t & T1 & T2).
    split; [exists i, t; split; [now apply Iff|auto]|]. intros j t' Lj Tj.
    apply negb_true_iff, mem_not_In in Hf. pose proof (proj1 Lj) as Bj. destruct (row_at nv f j W Bj) as (row & Er & _).
    destruct (overlaps_ok nv f c cv j) as (pj & Epj & _); auto.
    destruct (existsb (fun w => negb (w =? x) && mem w cv) row) eqn:Q.
    - apply existsb_exists in Q as (w & W1 & W2). apply andb_true_iff in W2 as [W2 W3]. apply negb_true_iff, Nat.eqb_neq in W2. apply mem_In in W3.
      destruct (clause_of_row nv f c cv w W Ec W3) as (u & Uu). destruct (clause_of_row nv f j row w W Er W1) as (u' & Uu'). exists w, u, u'. auto.
    - exfalso. apply Hf. apply in_concat. exists (snd pj). split; [apply in_map_iff; exists pj; split; auto; apply Ip; exists j; split; [now apply Iff|exact Epj]|].
      apply (overlaps_single nv f c cv j pj x t t' row); auto.
      + apply (proj1 (Forall_forall _ _) Nd). eapply nth_error_In; eauto.
      + intros w u u' A B. destruct (Nat.eq_dec w x) as [|Nw]; auto. exfalso.
        assert (Q' : existsb (fun w => negb (w =? x) && mem w cv) row = true); [|congruence].
        apply existsb_exists. exists w. split; [apply (row_var nv f j row w u'); auto|]. apply Nat.eqb_neq in Nw. rewrite Nw. cbn. apply mem_In. eapply row_var; eauto. }
  assert (Uq : forall x t t', in_clause f c x t -> in_clause f c x t' -> t = t').
  { intros x t t' (j & A & B) (j' & A' & B'). assert (Ncv : NoDup cv) by (apply (proj1 (Forall_forall _ _) Nd); eapply nth_error_In; eauto).
    unfold get2, get in A, A'. rewrite Ec in A, A'. cbn [bind] in A, A'.
    assert (j = j'); [|subst; congruence]. eapply NoDup_nth_error; eauto; [apply nth_error_Some; congruence|congruence]. }
  assert (Inv : forall st x, In x pool -> unchanged nv f h st -> exists s' b,
    (t <- type_in f c x ;; try_flip f st x (if (t =? 1)%Z then n1 else n0)) = Some (s', b) /\
    ((unchanged nv f h s' /\ b = false) \/
     ((exists t, in_clause f c x t /\ k_hd (fst s') = upd h x (if (t =? 1)%Z then n1 else n0) /\ unsat f (k_hd (fst s')) = []) /\ b = true))).
  { intros [o1 old] x Hx ((L1 & F1) & Eh & En & Hs). cbn [fst snd] in *. subst old.
    destruct (Pool x Hx) as ((i & t & _ & Tc & _) & _). assert (Hxc : In x cv) by (eapply row_var; eauto).
    destruct (type_in_ok nv f c cv x W Hc Ec Hxc) as [t0 Et]. rewrite Et. cbn [bind]. apply type_in_clause in Et.
    assert (Bx : x < nv) by (apply (proj1 (Forall_forall _ _) Fcv); auto).
    unfold try_flip. rewrite (set_lt (k_hd o1)) by lia. cbn [bind].
    destruct (get_summary_ok nv f (upd (k_hd o1) x (if (t0 =? 1)%Z then n1 else n0)) W) as (s & Es & _ & _ & _ & Us); [rewrite upd_length; auto|].
    rewrite Es. cbn [bind]. rewrite Us, Un. cbn [length]. rewrite Eh in *.
    destruct (unsat f (upd h x (if (t0 =? 1)%Z then n1 else n0))) as [|y l] eqn:Q; cbn [length].
    - cbn [Nat.ltb Nat.leb bind nonempty negb]. eexists _, _. split; [reflexivity|]. right. split; [|reflexivity]. exists t0. cbn [fst k_hd]. auto.
    - replace (S (length l) <? 1) with false by (symmetry; apply Nat.ltb_ge; lia). eexists _, _. split; [reflexivity|]. left. split; [|reflexivity].
      unfold unchanged. cbn [fst snd k_hd k_sum]. rewrite Un, Us. split; [split; auto|]. split; [reflexivity|]. split; [reflexivity|discriminate]. }
  match goal with |- context [fold_break ?bd pool ?st0] =>
    destruct (fold_break_first bd (unchanged nv f h)
      (fun x s' => exists t, in_clause f c x t /\ k_hd (fst s') = upd h x (if (t =? 1)%Z then n1 else n0) /\ unsat f (k_hd (fst s')) = []) pool st0)
      as ([o' old'] & E' & C) end.
  { split; [split; [exact L|cbn [fst]; rewrite Fl; apply flag_of_unsat; auto]|]. split; [reflexivity|]. cbn [fst snd]. rewrite U, Un. split; [reflexivity|discriminate]. }
  { intros st x Hx Hst. apply Inv; auto. }
  rewrite E'. cbn [bind].
  assert (L' : length (k_hd o') = nv) by (destruct C as [((A & _) & _)|(x & _ & t & _ & A & _)]; cbn [fst] in A; [exact A|rewrite A, upd_length; exact L]).
  destruct (get_summary_ok nv f (k_hd o') W L') as (s' & Es' & _). rewrite Es'. cbn [bind]. eexists _, _. split; [reflexivity|]. cbn [k_hd].
  destruct C as [(_ & A & _)|(x & Hx & t & Tc & A & Z)]; cbn [fst] in *; [now left|right].
  destruct (Pool x Hx) as ((i & t1 & Li & T1 & T2) & Al). exists x, t, i. split; [exact A|]. split; [exact Tc|].
  rewrite (Uq x t t1 Tc T1). split; [exact T2|]. split; [exact Li|]. split; [exact Al|].
  intros c' Hc'. destruct (existsb (is_true (k_hd o')) (lits f c')) eqn:Bx.
  - apply existsb_exists in Bx as ((y & ty) & B1 & B2). apply in_lits in B1. exists y, ty. split; auto. apply (is_true_iff nv f _ c'); auto.
  - exfalso. assert (K : In c' (unsat f (k_hd o'))) by (apply filter_In; split; [apply in_seq; lia|now rewrite Bx]). rewrite Z in K. destruct K.
Qed.

(** ** Examples *)

(** three violated clauses share the literal 0; setting it repairs all *)
Definition shared : option formula :=
  create_formula 4 2 [true; true; true; true] (fun l => l) [d2 0 0 true; d2 1 0 true; d2 0 1 true; d2 0 2 true; d2 3 2 false].
Example C71_shared_example :
  exists f o o1, shared = Some f /\ consistent 4 f /\ hard_decision_analysis f n0 (map zn [1; 1; 1; 1]%Z) = Some o /\
    v_unsat (k_sum o) = [0; 1; 2] /\ in_clause f 0 0 1 /\ in_clause f 2 0 1 /\
    violations f (upd (k_hd o) 0 n1) 0 /\ phase1 f o = Some o1 /\ v_unsat (k_sum o1) = [].
Proof.
  destruct (create_formula_ok 4 2 [true; true; true; true] (fun l => l)
    [d2 0 0 true; d2 1 0 true; d2 0 1 true; d2 0 2 true; d2 3 2 false]) as (f & E & W & _);
    [lia|reflexivity| |intros; apply Permutation_refl|].
  { repeat constructor; cbn; try lia; intros [|[|j]] i s H; try discriminate; cbn in H; injection H as <- <-; lia. }
  exists f. vm_compute in E. injection E as <-. do 2 eexists. split; [vm_compute; reflexivity|]. split; [exact W|].
  split; [vm_compute; reflexivity|]. split; [vm_compute; reflexivity|]. split; [exists 0; split; reflexivity|]. split; [exists 0; split; reflexivity|].
  split; [apply (violations_unsat 4); [exact W|reflexivity|reflexivity]|]. split; vm_compute; reflexivity.
Qed.

(** one violated clause that no other clause overlaps: repaired with [pp] = 2, not with [pp] = 1 *)
Example C71_one_clause_example :
  exists f o, sample = Some f /\ consistent 4 f /\ hard_decision_analysis f n0 (map zn [-1; -1; 1; -1]%Z) = Some o /\
    v_unsat (k_sum o) = [1] /\ in_clause f 1 1 (-1) /\ in_clause f 1 2 1 /\
    (forall c', c' < y_nc f -> clause_true f (with_values (k_hd o) [1] (fun _ => false)) c') /\
    option_map k_flag (post_processing f (fun l => l) (fun l => l) 2 o) = Some true.
Proof.
  destruct C37_example as (f & _ & _ & Ef & W & _). exists f. eexists.
  split; [auto|]. split; [auto|]. vm_compute in Ef. injection Ef as <-.
  split; [vm_compute; reflexivity|]. split; [reflexivity|]. split; [exists 0; split; reflexivity|]. split; [exists 1; split; reflexivity|]. split.
  - intros [|[|c']] Hc; [| |cbn in Hc; lia].
    + exists 0, 1%Z. split; [exists 0; split; reflexivity|]. exists n1. split; [reflexivity|]. left. split; [reflexivity|discriminate].
    + exists 1, (-1)%Z. split; [exists 0; split; reflexivity|]. exists n0. split; [reflexivity|]. right. auto.
  - vm_compute. reflexivity.
Qed.
(** Full statement without [2 <= pp]: false. *)
Theorem C71_pp_refuted :
  exists (nv : nat) (f : formula) (thr : num) (intrinsic : list num) (o o' : ks_obj) (v : nat) (b : bool),
    consistent nv f /\ length intrinsic = nv /\ hard_decision_analysis f thr intrinsic = Some o /\
    v_unsat (k_sum o) = [1] /\ (exists t, in_clause f 1 v t) /\
    (forall c, c < y_nc f -> clause_true f (with_values (k_hd o) [v] (fun _ => b)) c) /\
    post_processing f (fun l => l) (fun l => l) 1 o = Some o' /\ k_flag o' = false.
Proof.
  destruct C71_one_clause_example as (f & o & Ef & W & Eo & U & I1 & _ & H & _).
  destruct (post_processing f (fun l => l) (fun l => l) 1 o) as [o'|] eqn:E.
  2:{ vm_compute in Ef. injection Ef as <-. vm_compute in Eo. injection Eo as <-. vm_compute in E. discriminate. }
  exists 4, f, n0, (map zn [-1; -1; 1; -1]%Z), o, o', 1, false. do 4 (split; [auto|]). split; [eauto|]. split; [exact H|]. split; [exact E|].
  vm_compute in Ef. injection Ef as <-. vm_compute in Eo. injection Eo as <-. vm_compute in E. injection E as <-. reflexivity.
Qed.

(** two violated clauses without a common variable, repaired together by the third stage *)
Example C71_combination_example :
  exists f o, sample = Some f /\ hard_decision_analysis f n0 (map zn [1; -1; 1; -1]%Z) = Some o /\
    v_unsat (k_sum o) = [0; 1] /\ violations f (with_values (k_hd o) [0; 2] (fun _ => true)) 0 /\
    option_map (fun o' => v_unsat (k_sum o')) (phase3 f (fun l => l) 2 [[0; 3]; [1; 2]] o) = Some [].
Proof.
  destruct C37_example as (f & _ & _ & Ef & W & _). exists f. eexists.
  split; [auto|]. vm_compute in Ef. injection Ef as <-.
  split; [vm_compute; reflexivity|]. split; [reflexivity|]. split; [|vm_compute; reflexivity].
  apply (violations_unsat 4); [exact W|reflexivity|reflexivity].
Qed.

(** the clause (0 or not 1 or 3) leans on the violated clause (0 or 1 or 2); the second stage sets 0 *)
Definition leaning : option formula :=
  create_formula 4 3 [true; true; true; true] (fun l => l)
    [{| d_first := 0; d_rest := [(0, true); (0, true)] |}; {| d_first := 0; d_rest := [(0, false); (1, true)] |}].
Example C71_neighbour_example :
  exists f o, leaning = Some f /\ consistent 4 f /\ hard_decision_analysis f n0 (map zn [1; 1; 1; 1]%Z) = Some o /\
    v_unsat (k_sum o) = [0] /\ in_clause f 0 0 1 /\ in_clause f 1 0 1 /\ leans_on f (k_hd o) 0 1 /\
    (forall t', in_clause f 0 0 t' -> t' = 1%Z) /\ (forall t', in_clause f 1 0 t' -> t' = 1%Z) /\
    (forall c', c' < y_nc f -> clause_true f (upd (k_hd o) 0 n1) c') /\
    option_map (fun o' => (k_flag o', k_hd o')) (post_processing f (fun l => l) (fun l => l) 0 o) = Some (true, map zn [1; 0; 0; 0]%Z).
Proof.
  destruct (create_formula_ok 4 3 [true; true; true; true] (fun l => l)
    [{| d_first := 0; d_rest := [(0, true); (0, true)] |}; {| d_first := 0; d_rest := [(0, false); (1, true)] |}]) as (f & E & W & _);
    [lia|reflexivity| |intros; apply Permutation_refl|].
  { repeat constructor; cbn; try lia; intros [|[|[|j]]] i s H; try discriminate; cbn in H; injection H as <- <-; lia. }
  exists f. vm_compute in E. injection E as <-. eexists. split; [vm_compute; reflexivity|]. split; [exact W|].
  split; [vm_compute; reflexivity|]. split; [vm_compute; reflexivity|]. split; [exists 0; split; reflexivity|]. split; [exists 0; split; reflexivity|].
  assert (C1 : forall w t, in_clause {| y_nc := 2; y_conx := [[0; 1; 2]; [0; 1; 3]]; y_types := [[1; 1; 1]; [1; -1; 1]]%Z; y_used := [2; 0; 1; 3];
    y_vconx := [[0; 1]; [0; 1]; [0]; [1]]; y_vtypes := [[1; 1]; [1; -1]; [1]; [1]]%Z |} 1 w t -> (w, t) = (0, 1%Z) \/ (w, t) = (1, (-1)%Z) \/ (w, t) = (3, 1%Z)).
  { intros w t (j & A & B). destruct j as [|[|[|j]]]; cbn in A, B; try (injection A as <-; injection B as <-; auto). destruct j; discriminate. }
  assert (C0 : forall w t, in_clause {| y_nc := 2; y_conx := [[0; 1; 2]; [0; 1; 3]]; y_types := [[1; 1; 1]; [1; -1; 1]]%Z; y_used := [2; 0; 1; 3];
    y_vconx := [[0; 1]; [0; 1]; [0]; [1]]; y_vtypes := [[1; 1]; [1; -1]; [1]; [1]]%Z |} 0 w t -> t = 1%Z).
  { intros w t (j & A & B). destruct j as [|[|[|j]]]; cbn in A, B; try (injection B as <-; auto). destruct j; discriminate. }
  split; [|split; [intros t'; apply C0|split; [|split; [|vm_compute; reflexivity]]]].
  - split; [cbn; lia|]. split; [|split].
    + exists 0, 1%Z, 1%Z. split; exists 0; split; reflexivity.
    + exists 2, 1%Z. split; [exists 2; split; reflexivity|]. intros t' T'. apply C1 in T' as [Q|[Q|Q]]; discriminate.
    + intros w t T (x & Ex & X). apply C1 in T as [Q|[Q|Q]]; injection Q as -> ->; [exists 1%Z, 0; split; reflexivity|exists 1%Z, 1; split; reflexivity|].
      exfalso. vm_compute in Ex. injection Ex as <-. destruct X as [[_ X]|[X _]]; [now apply X|discriminate].
  - intros t' T'. apply C1 in T' as [Q|[Q|Q]]; congruence.
  - intros [|[|c']] Hc; [| |cbn in Hc; lia]; exists 0, 1%Z; (split; [exists 0; split; reflexivity|exists n1; split; [reflexivity|left; split; [reflexivity|discriminate]]]).
Qed.

Print Assumptions C71_shared_literal.
Print Assumptions C71_combination.
Print Assumptions C71_one_clause.
Print Assumptions C71_neighbour.
Print Assumptions C71_neighbour_only.
Print Assumptions C71_pp_refuted.
