(** * Proofs: the pure Python TSP updates against the C++ ones. *)
From Verif Require Import Num NumFacts Arr ArrFacts MinSum MinSumFacts M_Tsp_Constraints M_Filter
  M_Equality M_InOut P_Tsp_Constraints P_Kc_Trellis P_Ksat P_Equality P_Filter P_InOut P_Tsp_Sched M_PyRef.
Local Open Scope nat_scope.

(** ** numpy pieces *)
Lemma np_minimum_nmin a b : notnan a -> notnan b -> np_minimum a b = nmin a b.
Proof. destruct a, b; cbn; unfold notnan; congruence || auto. Qed.
Lemma np_maximum_nmax a b : notnan a -> notnan b -> np_maximum a b = nmax a b.
Proof. destruct a, b; cbn; unfold notnan; congruence || auto. Qed.
Lemma fold_np_min l a : notnan a -> Forall notnan l -> fold_left np_minimum l a = fold_left nmin l a.
Proof.
  intros Ha H; revert a Ha; induction H as [|x l Hx H IH]; intros a Ha; cbn; auto.
  rewrite np_minimum_nmin by auto. apply IH. apply nmin_notnan; auto.
Qed.
Lemma np_min_nmins l : l <> [] -> Forall notnan l -> np_min l = Some (nmins l).
Proof.
  destruct l as [|a l]; [congruence|]. intros _ H. inversion H; subst. cbn [np_min nmins].
  rewrite fold_np_min, nmins_fold_left; auto.
Qed.
Lemma py_min_nmins l : l <> [] -> Forall notnan l -> py_min l = Some (nmins l).
Proof.
  destruct l as [|a l]; [congruence|]. intros _ H. inversion H; subst. cbn [py_min nmins].
  rewrite nmins_fold_left; auto.
Qed.
Lemma np_min_Fin l : l <> [] -> np_min (map Fin l) = Some (nmins (map Fin l)).
Proof. intros H. apply np_min_nmins; [destruct l; cbn; congruence | apply Forall_Fin]. Qed.
Lemma py_min_Fin l : l <> [] -> py_min (map Fin l) = Some (nmins (map Fin l)).
Proof. intros H. apply py_min_nmins; [destruct l; cbn; congruence | apply Forall_Fin]. Qed.
Lemma np_sum_Fin l : np_sum (map Fin l) = Fin (qsum l).
Proof. unfold np_sum, n0. rewrite fold_left_Fin. f_equal. ring. Qed.

Lemma indices_spec {A} (p : A -> bool) l d :
  indices p l = filter (fun i => p (nth i l d)) (seq 0 (length l)).
Proof.
  unfold indices.
  assert (G : forall l pre, map fst (filter (fun ix => p (snd ix)) (combine (seq (length pre) (length l)) l))
    = filter (fun i => p (nth i (pre ++ l) d)) (seq (length pre) (length l))).
  { clear l. induction l as [|a l IH]; intros pre; cbn [length seq combine filter map]; auto.
    cbn [snd]. rewrite app_nth2, Nat.sub_diag by lia. cbn [nth].
    specialize (IH (pre ++ [a])). rewrite app_length in IH. cbn [length] in IH.
    rewrite Nat.add_1_r, <- app_assoc in IH. cbn [app] in IH.
    destruct (p a); cbn [map fst]; rewrite IH; auto. }
  apply (G l []).
Qed.
Lemma indices_from E u : indices (fun e => u =? fst e) E = from_node E u.
Proof.
  rewrite (indices_spec _ E (0, 0)). unfold from_node. apply filter_ext. intros i. apply Nat.eqb_sym.
Qed.
Lemma indices_into E u : indices (fun e => u =? snd e) E = into_node E u.
Proof.
  rewrite (indices_spec _ E (0, 0)). unfold into_node. apply filter_ext. intros i. apply Nat.eqb_sym.
Qed.
Lemma mapM_map_Fin {A} (f : A -> option num) (g : A -> Qc) l :
  (forall a, In a l -> f a = Some (Fin (g a))) -> mapM f l = Some (map Fin (map g l)).
Proof. intros H. rewrite map_map. apply mapM_Some. auto. Qed.
Lemma np_take_ok {A} (v : list A) (g : nat -> A) idx :
  (forall i, In i idx -> get v i = Some (g i)) -> np_take v idx = Some (map g idx).
Proof. apply mapM_Some. Qed.
Lemma np_take_Fin v idx : (forall i, In i idx -> i < length v) ->
  np_take (map Fin v) idx = Some (map Fin (map (fun i => nth i v 0%Qc) idx)).
Proof.
  intros H. rewrite map_map. apply np_take_ok. intros i Hi. apply (get_mapFin v i (length v)); auto.
Qed.
Lemma np_add_Fin a b : length a = length b -> np_add (map Fin a) (map Fin b) = Some (map Fin (qplus a b)).
Proof. intros H. unfold np_add. rewrite !map_length, H, Nat.eqb_refl. f_equal. apply zip_with_Fin. Qed.
Lemma qplus_map {A} (f g : A -> Qc) l : qplus (map f l) (map g l) = map (fun a => (f a + g a)%Qc) l.
Proof. unfold qplus, zip_with. induction l as [|a l IH]; cbn; auto. f_equal; auto. Qed.

Definition qadd2 (A B : list (list Qc)) : list (list Qc) := zip_with qplus A B.
Lemma np_add2_inj n k A B : shape n k A -> shape n k B -> np_add2 (inj A) (inj B) = Some (inj (qadd2 A B)).
Proof.
  intros [LA FA] [LB FB]. unfold np_add2, inj. rewrite !map_length, LA, LB, Nat.eqb_refl.
  revert n B LA LB FB. unfold qadd2, zip_with.
  induction A as [|a A IH]; intros n [|b B] LA LB FB; cbn in *; subst; try lia; auto.
  inversion FA; inversion FB; subst. rewrite np_add_Fin by lia. cbn [bind].
  rewrite (IH ltac:(auto) (length A) B); auto. 
Qed.
Lemma qadd2_shape n k A B : shape n k A -> shape n k B -> shape n k (qadd2 A B).
Proof.
  intros [LA FA] [LB FB]. split; [unfold qadd2; rewrite zip_with_length; lia|].
  unfold qadd2, zip_with. apply Forall_map. apply Forall_forall. intros [a b] H. cbn [fst snd].
  rewrite Forall_forall in FA, FB. rewrite qplus_length.
  rewrite (FA a) by (eapply in_combine_l; eauto). rewrite (FB b) by (eapply in_combine_r; eauto). lia.
Qed.
Lemma qadd2_at n k A B i j : shape n k A -> shape n k B -> i < n -> qat (qadd2 A B) i j = (qat A i j + qat B i j)%Qc.
Proof.
  intros SA SB Hi. unfold qat. assert (E : nth i (qadd2 A B) [] = qplus (nth i A []) (nth i B [])).
  { apply nth_error_nth. unfold qadd2. apply get_zip_with; apply get_nth; [destruct SA | destruct SB]; lia. }
  rewrite E. apply nth_qplus. rewrite (shape_nth n k A), (shape_nth n k B); auto.
Qed.
Lemma qmat_ext n k A B : shape n k A -> shape n k B ->
  (forall i j, i < n -> j < k -> qat A i j = qat B i j) -> A = B.
Proof.
  intros SA SB H. apply (shape_ext n k); auto. intros i j Hi Hj.
  assert (G : forall M, shape n k M -> get2 M i j = Some (qat M i j)).
  { intros M SM. unfold get2. rewrite (get_nth M i []) by (destruct SM; lia). cbn [bind].
    apply get_nth. rewrite (shape_nth n k); auto. }
  rewrite !G by auto. f_equal. auto.
Qed.

(** [v[idx] = vals], given by a function of the index *)
Lemma np_put_ok v idx (f : nat -> num) : (forall i, In i idx -> i < length v) ->
  exists v', np_put v idx (map f idx) = Some v' /\ length v' = length v /\
    forall j, get v' j = if existsb (Nat.eqb j) idx then Some (f j) else get v j.
Proof.
  intros H. unfold np_put. rewrite map_length, Nat.eqb_refl. revert v H.
  induction idx as [|i idx IH]; intros v H; cbn [map combine foldM].
  - exists v. auto.
  - cbn [fst snd]. rewrite set_lt by (apply H; left; auto). cbn [bind].
    destruct (IH (upd v i (f i))) as (v' & E & L & G).
    { intros j Hj. rewrite upd_length. apply H; right; auto. }
    exists v'. split; auto. rewrite upd_length in L. split; auto. intros j. rewrite G. cbn [existsb].
    rewrite get_upd by (apply H; left; auto). rewrite (Nat.eqb_sym i j).
    destruct (Nat.eqb_spec j i) as [->|Hn]; cbn [orb]; auto.
    destruct (existsb (Nat.eqb i) idx); auto.
Qed.
Lemma existsb_eqb_In x l : existsb (Nat.eqb x) l = true <-> In x l.
Proof.
  rewrite existsb_exists. split.
  - intros (y & H & E). apply Nat.eqb_eq in E. subst; auto.
  - intros H; exists x; split; auto. apply Nat.eqb_refl.
Qed.

Lemma column_inj n k M j : shape n k M -> j < k -> column (inj M) j = Some (map Fin (col M n j)).
Proof.
  intros S Hj. unfold column, col.
  assert (G : forall M n, shape n k M -> mapM (fun r => get r j) (inj M) = Some (map Fin (map (fun p => qat M p j) (seq 0 n)))).
  { clear M n S. induction M as [|r M IH]; intros n [L F]; cbn in L; subst n; cbn [inj map mapM length seq]; auto.
    inversion F; subst. rewrite (get_mapFin r j (length r)) by auto. cbn [bind].
    unfold inj in IH. rewrite (IH (length M)) by (split; auto). cbn [bind]. f_equal. f_equal.
    rewrite <- seq_shift, !map_map. apply map_ext. reflexivity. }
  apply G; auto.
Qed.
Lemma column_sums_ok n k M : shape n k M -> n <> 0 ->
  column_sums (inj M) = Some (map Fin (map (fun j => qsum (col M n j)) (seq 0 k))).
Proof.
  intros S Hn. unfold column_sums. destruct M as [|r M]; [destruct S; cbn in *; lia|].
  cbn [inj map get nth_error bind]. rewrite map_length.
  assert (length r = k) as -> by (destruct S as [_ F]; inversion F; auto).
  apply mapM_map_Fin. intros j Hj. apply in_seq in Hj.
  change (map Fin r :: map (map Fin) M) with (inj (r :: M)). rewrite (column_inj n k) by (auto; lia).
  cbn [bind]. rewrite np_sum_Fin. reflexivity.
Qed.
Lemma row_sums_inj M : row_sums (inj M) = map Fin (map qsum M).
Proof. unfold row_sums, inj. rewrite !map_map. apply map_ext. intros r. apply np_sum_Fin. Qed.

(** ** "Optimum over the others" *)
Lemma py_others_ok conn rd (val : nat -> Qc) best (f : list Qc -> num) (cell : nat -> nat * nat)
  wr (out : list (list num)) n m :
  NoDup conn -> length conn <> 1 ->
  (forall c, In c conn -> rd c = Some (Fin (val c))) ->
  (forall l, l <> [] -> best (map Fin l) = Some (f l)) ->
  (forall out c v, wr out c v = set2 out (fst (cell c)) (snd (cell c)) v) ->
  (forall c, In c conn -> fst (cell c) < n /\ snd (cell c) < m) ->
  (forall c c', In c conn -> In c' conn -> cell c = cell c' -> c = c') ->
  shape n m out ->
  exists out', py_others_pass conn rd best wr out = Some out' /\ shape n m out' /\
    (forall p c, get conn p = Some c ->
       get2 out' (fst (cell c)) (snd (cell c)) = Some (f (remove_at p (map val conn)))) /\
    (forall i j, (forall c, In c conn -> cell c <> (i, j)) -> get2 out' i j = get2 out i j).
Proof.
  intros Hnd H1 Hrd Hbest Hwr Hb Hinj Hs. unfold py_others_pass.
  match goal with |- context [for_up 0 (length conn) out ?bd] =>
    destruct (for_up_ind 0 (length conn) out bd
    (fun i o => shape n m o /\
      (forall k c, k < i -> get conn k = Some c ->
         get2 o (fst (cell c)) (snd (cell c)) = Some (f (remove_at k (map val conn)))) /\
      (forall i j, (forall c, In c conn -> cell c <> (i, j)) -> get2 o i j = get2 out i j)))
    as (o & Ho & HS & HP & HQ) end.
  - lia.
  - split; [auto|split; auto]. intros; lia.
  - intros i o Hi (HS & HP & HQ).
    replace (firstn i conn ++ skipn (i + 1) conn) with (remove_at i conn)
      by (rewrite remove_at_split, Nat.add_1_r; auto).
    rewrite (mapM_map_Fin rd val).
    2:{ intros a Ha. apply Hrd. rewrite remove_at_split in Ha. apply in_app_or in Ha.
        rewrite <- (firstn_skipn (S i) conn). apply in_or_app. destruct Ha as [Ha|Ha]; auto. left.
        rewrite <- (firstn_skipn i (firstn (S i) conn)), firstn_firstn. apply in_or_app; left.
        replace (Nat.min i (S i)) with i by lia. auto. }
    cbn [bind]. rewrite Hbest.
    2:{ intros X. apply map_eq_nil in X. apply (f_equal (@length _)) in X.
        rewrite remove_at_length in X by lia. cbn in X. lia. }
    cbn [bind]. destruct (get_lt conn i) as [c Hc]; [lia|]. rewrite Hc; cbn [bind]. rewrite Hwr.
    assert (Ic : In c conn) by (eapply nth_error_In; eauto).
    destruct (Hb c Ic). erewrite set2_lt by eauto. eexists; split; [reflexivity|].
    split; [apply shape_upd2; auto|]. rewrite <- remove_at_map. split.
    + intros k c' Hk Hc'. erewrite get2_upd2 by eauto.
      destruct (Nat.eqb_spec (fst (cell c)) (fst (cell c')));
        destruct (Nat.eqb_spec (snd (cell c)) (snd (cell c'))); cbn [andb].
      1:{ assert (c = c').
          { apply Hinj; auto. eapply nth_error_In; eauto.
            rewrite (surjective_pairing (cell c)), (surjective_pairing (cell c')). congruence. }
          subst c'. assert (k = i) by (eapply NoDup_get; eauto). subst; auto. }
      all: apply HP; auto; assert (k <> i) by (intros ->; congruence); lia.
    + intros i' j' Hn. erewrite get2_upd2 by eauto.
      destruct (Nat.eqb_spec (fst (cell c)) i');
        destruct (Nat.eqb_spec (snd (cell c)) j'); cbn [andb]; auto.
      exfalso. apply (Hn c Ic). rewrite (surjective_pairing (cell c)). congruence.
  - exists o. split; [exact Ho|]. split; [auto|]. split; auto.
    intros k c Hc. apply HP; auto. eapply get_Some_lt; eauto.
Qed.

Lemma neg_np_min_Fin l : l <> [] -> neg_np_min (map Fin l) = Some (nopp (nmins (map Fin l))).
Proof. intros H. unfold neg_np_min. rewrite np_min_Fin by auto. reflexivity. Qed.
Lemma nopp_nmax a : nopp (nmax a n0) = nmin (nopp a) n0.
Proof.
  unfold nmax, nmin, n0. destruct a as [q| | |]; cbn; auto.
  destruct (qltb_spec q 0), (qltb_spec 0 (- q)); cbn; f_equal; try qlra; exfalso; qlra.
Qed.
Lemma neg_clamped_min_Fin l : l <> [] ->
  neg_clamped_min (map Fin l) = Some (nmin (nopp (nmins (map Fin l))) n0).
Proof.
  intros H. unfold neg_clamped_min. rewrite py_min_Fin by auto. cbn [bind].
  rewrite np_maximum_nmax, nopp_nmax; [reflexivity | apply nmins_notnan, Forall_Fin | unfold notnan; intros X; discriminate X].
Qed.

(** ** Degree constraints *)
Lemma py_degree_ok n k Mq E :
  length E = n -> shape n k Mq -> no_self_loop E ->
  (forall u, u < k -> length (from_node E u) <> 1 /\ length (into_node E u) <> 1) ->
  exists out', py_degree_update k n E (inj Mq) = Some out' /\ shape n k out' /\
    (forall u p e, u < k -> get (from_node E u) p = Some e -> exists v, get2 out' e u = Some v /\
       minsum_message exactly_one (map (fun e => qat Mq e u) (from_node E u)) p v) /\
    (forall u p e, u < k -> get (into_node E u) p = Some e -> exists v, get2 out' e u = Some v /\
       minsum_message exactly_one (map (fun e => qat Mq e u) (into_node E u)) p v) /\
    (forall u e, u < k -> e < n -> ~ (In e (from_node E u) \/ In e (into_node E u)) ->
       get2 out' e u = Some n0).
Proof.
  intros HE HM Hns Hdeg. unfold py_degree_update.
  match goal with |- context [for_up 0 k ?st0 ?bd] =>
    destruct (for_up_ind 0 k st0 bd (fun i o => shape n k o /\
    (forall u p e, u < i -> get (from_node E u) p = Some e -> exists v, get2 o e u = Some v /\
       minsum_message exactly_one (map (fun e => qat Mq e u) (from_node E u)) p v) /\
    (forall u p e, u < i -> get (into_node E u) p = Some e -> exists v, get2 o e u = Some v /\
       minsum_message exactly_one (map (fun e => qat Mq e u) (into_node E u)) p v) /\
    (forall u e, u < k -> e < n -> ~ (u < i /\ (In e (from_node E u) \/ In e (into_node E u))) ->
       get2 o e u = Some n0))) as (o & Eo & S & A & B & C) end.
  - lia.
  - split; [apply shape_repeat|]. split; [intros; lia|]. split; [intros; lia|].
    intros u e Hu He _. apply get2_repeat; auto.
  - intros u o Hu (S & A & B & C). rewrite indices_from, indices_into.
    destruct (Hdeg u ltac:(lia)) as [D1 D2].
    assert (RD : forall conn, (forall c, In c conn -> c < n) ->
      forall c, In c conn -> get2 (inj Mq) c u = Some (Fin (qat Mq c u))).
    { intros conn Hc c Ic. apply (get2_inj n k); auto; lia. }
    assert (LF : forall c, In c (from_node E u) -> c < n) by (intros c Hc; apply from_node_spec in Hc; lia).
    assert (LI : forall c, In c (into_node E u) -> c < n) by (intros c Hc; apply into_node_spec in Hc; lia).
    destruct (py_others_ok (from_node E u) (fun e => get2 (inj Mq) e u) (fun e => qat Mq e u) neg_np_min
      (fun l => nopp (nmins (map Fin l))) (fun e => (e, u)) (fun out e v => set2 out e u v) o n k)
      as (o1 & E1 & S1 & V1 & W1); [apply from_node_NoDup | auto | apply RD; auto | apply neg_np_min_Fin | auto | | | auto |].
    { intros c Hc. split; auto. cbn. lia. } { intros c c' _ _ X; congruence. }
    rewrite E1; cbn [bind].
    destruct (py_others_ok (into_node E u) (fun e => get2 (inj Mq) e u) (fun e => qat Mq e u) neg_np_min
      (fun l => nopp (nmins (map Fin l))) (fun e => (e, u)) (fun out e v => set2 out e u v) o1 n k)
      as (o2 & E2 & S2 & V2 & W2); [apply into_node_NoDup | auto | apply RD; auto | apply neg_np_min_Fin | auto | | | auto |].
    { intros c Hc. split; auto. cbn. lia. } { intros c c' _ _ X; congruence. }
    exists o2. split; [exact E2|]. split; auto.
    assert (DISJ : forall e, In e (from_node E u) -> ~ In e (into_node E u)).
    { intros e H1 H2. apply from_node_spec in H1. apply into_node_spec in H2.
      unfold no_self_loop in Hns; rewrite Forall_forall in Hns.
      apply (Hns (nth e E (0, 0))); [apply nth_In; lia|]. lia. }
    split; [|split].
    + intros u' p e Hu' Hp. destruct (Nat.eq_dec u' u) as [->|Hn].
      * exists (nopp (nmins (map Fin (remove_at p (map (fun e => qat Mq e u) (from_node E u)))))).
        split; [|apply exactly_one_message; rewrite map_length; eapply get_Some_lt; eauto].
        rewrite W2; [apply (V1 _ _ Hp)|]. intros c Hc X. injection X as ->.
        apply (DISJ e); auto. eapply nth_error_In; eauto.
      * destruct (A u' p e) as (v & Hv & Mv); auto; [lia|]. exists v. split; auto.
        rewrite W2, W1; auto; intros c Hc X; injection X; congruence.
    + intros u' p e Hu' Hp. destruct (Nat.eq_dec u' u) as [->|Hn].
      * exists (nopp (nmins (map Fin (remove_at p (map (fun e => qat Mq e u) (into_node E u)))))).
        split; [|apply exactly_one_message; rewrite map_length; eapply get_Some_lt; eauto].
        apply (V2 _ _ Hp).
      * destruct (B u' p e) as (v & Hv & Mv); auto; [lia|]. exists v. split; auto.
        rewrite W2, W1; auto; intros c Hc X; injection X; congruence.
    + intros u' e Hu' He Hno. rewrite W2, W1.
      * apply C; auto. intros [X Y]. apply Hno. split; auto. lia.
      * intros c Hc X. injection X as <- <-. apply Hno. split; [lia|]. auto.
      * intros c Hc X. injection X as <- <-. apply Hno. split; [lia|]. auto.
  - exists o. split; [exact Eo|]. split; auto. split; [|split]; auto.
    intros u e Hu He Hno. apply C; auto. tauto.
Qed.

Lemma degree_same n k Mq E :
  length E = n -> shape n k Mq -> no_self_loop E ->
  (forall u, u < k -> 2 <= length (from_node E u) /\ 2 <= length (into_node E u)) ->
  exists R, py_degree_update k n E (inj Mq) = Some R /\ degree_update k n E (inj Mq) (np_zeros n k) = Some R
    /\ shape n k R.
Proof.
  intros HE HM Hns Hdeg.
  destruct (py_degree_ok n k Mq E) as (R & ER & SR & A & B & C); auto.
  { intros u Hu. destruct (Hdeg u Hu). lia. }
  destruct (degree_update_ok n k Mq E (np_zeros n k)) as (R' & ER' & SR' & A' & B' & C'); auto.
  { apply shape_repeat. }
  { intros u Hu. destruct (Hdeg u Hu). split; intros X; rewrite X in *; cbn in *; lia. }
  exists R. split; auto. split; auto. rewrite ER'. f_equal. symmetry. apply (shape_ext n k); auto.
  intros e u He Hu.
  destruct (in_dec Nat.eq_dec e (from_node E u)) as [H1|H1].
  { apply In_nth_error in H1 as [p Hp]. destruct (A u p e Hu Hp) as (v & -> & Mv).
    destruct (A' u p e Hu Hp) as (v' & -> & Mv'). f_equal. eapply minsum_message_unique; eauto. }
  destruct (in_dec Nat.eq_dec e (into_node E u)) as [H2|H2].
  { apply In_nth_error in H2 as [p Hp]. destruct (B u p e Hu Hp) as (v & -> & Mv).
    destruct (B' u p e Hu Hp) as (v' & -> & Mv'). f_equal. eapply minsum_message_unique; eauto. }
  rewrite C, C' by (auto; tauto). symmetry. apply get2_repeat; auto.
Qed.

(** ** Subtour constraints *)
Lemma np_transpose_ok n k (m : list (list num)) : shape n k m ->
  exists t, np_transpose k m = Some t /\ shape k n t /\
    forall s e, s < k -> e < n -> get2 t s e = get2 m e s.
Proof.
  intros S. unfold np_transpose.
  assert (C : forall j, j < k -> column m j = Some (map (fun r => nth j r n0) m)).
  { intros j Hj. unfold column. apply mapM_Some. intros r Hr. apply get_nth.
    destruct S as [_ F]. rewrite Forall_forall in F. rewrite (F r Hr). auto. }
  rewrite (mapM_Some _ (fun j => map (fun r => nth j r n0) m)).
  2:{ intros j Hj. apply C. apply in_seq in Hj. lia. }
  eexists; split; [reflexivity|]. split.
  - split; [rewrite map_length, seq_length; auto|]. apply Forall_map, Forall_forall. intros j _.
    rewrite map_length. destruct S; auto.
  - intros s e Hs He. unfold get2 at 1. unfold get. rewrite (map_nth_error _ s (seq 0 k) (d:=s)).
    2:{ rewrite (nth_error_nth' _ 0) by (rewrite seq_length; auto). rewrite seq_nth by auto. reflexivity. }
    cbn [bind]. unfold get2. destruct (get_lt m e) as [r Hr]; [destruct S; lia|]. unfold get in *.
    rewrite Hr. cbn [bind]. rewrite (map_nth_error _ e m Hr). symmetry. apply get_nth.
    destruct S as [_ F]. rewrite Forall_forall in F. rewrite (F r); auto. eapply nth_error_In; eauto.
Qed.

Lemma py_subtour_ok n S Mq deltas :
  length deltas = S -> shape S n Mq ->
  Forall (fun d => length d <> 1 /\ NoDup d /\ Forall (fun e => e < n) d) deltas ->
  exists out', py_subtour_update n deltas (inj Mq) = Some out' /\ shape S n out' /\
    (forall s d p e, get deltas s = Some d -> get d p = Some e -> exists v, get2 out' s e = Some v /\
       minsum_message at_least_one (map (fun e => qat Mq s e) d) p v) /\
    (forall s d e, get deltas s = Some d -> e < n -> ~ In e d -> get2 out' s e = Some n0).
Proof.
  intros HD HM Hd. unfold py_subtour_update. rewrite HD.
  match goal with |- context [for_up 0 S ?st0 ?bd] =>
    destruct (for_up_ind 0 S st0 bd (fun i o => shape n S o /\
    (forall s d p e, s < i -> get deltas s = Some d -> get d p = Some e -> exists v, get2 o e s = Some v /\
       minsum_message at_least_one (map (fun e => qat Mq s e) d) p v) /\
    (forall s d e, get deltas s = Some d -> e < n -> (~ In e d \/ i <= s) -> get2 o e s = Some n0)))
    as (o & Eo & So & A & B) end.
  - lia.
  - split; [apply shape_repeat|]. split; [intros; lia|]. intros s d e Hs He _. apply get2_repeat; auto.
    rewrite <- HD. eapply get_Some_lt; eauto.
  - intros s o Hs (So & A & B). destruct (get_lt deltas s) as [d Hds]; [lia|]. rewrite Hds; cbn [bind].
    rewrite Forall_forall in Hd. destruct (Hd d) as (H1 & Hnd & Hb); [eapply nth_error_In; eauto|].
    rewrite Forall_forall in Hb.
    destruct (py_others_ok d (fun e => get2 (inj Mq) s e) (fun e => qat Mq s e) neg_clamped_min
      (fun l => nmin (nopp (nmins (map Fin l))) n0) (fun e => (e, s)) (fun out e v => set2 out e s v) o n S)
      as (o1 & E1 & S1 & V1 & W1);
      [auto | auto | | apply neg_clamped_min_Fin | auto | | | auto |].
    { intros c Hc. apply (get2_inj S n); auto; lia. }
    { intros c Hc. split; [cbn; auto|cbn; lia]. } { intros c c' _ _ X; congruence. }
    exists o1. split; [exact E1|]. split; auto. split.
    + intros s' d' p e Hs' Hd' Hp. destruct (Nat.eq_dec s' s) as [->|Hn].
      * rewrite Hds in Hd'. injection Hd' as <-. eexists. split; [apply (V1 _ _ Hp)|].
        apply at_least_one_message. rewrite map_length; eapply get_Some_lt; eauto.
      * destruct (A s' d' p e) as (v & Hv & Mv); auto; [lia|]. exists v. split; auto.
        rewrite W1; auto. intros c Hc X; injection X; congruence.
    + intros s' d' e Hd' He Hc. rewrite W1.
      * apply (B s' d'); auto. destruct Hc; auto. right; lia.
      * intros c Hc' X. injection X as <- <-. rewrite Hds in Hd'. injection Hd' as <-.
        destruct Hc; [auto|lia].
  - rewrite Eo; cbn [bind]. destruct (np_transpose_ok n S o So) as (t & Et & St & Gt).
    exists t. split; auto. split; auto.
    assert (LT : forall s d, get deltas s = Some d -> s < S) by (intros; rewrite <- HD; eapply get_Some_lt; eauto).
    split.
    + intros s d p e Hs Hp. specialize (LT s d Hs).
      assert (He : e < n).
      { rewrite Forall_forall in Hd. destruct (Hd d) as (_ & _ & Hb); [eapply nth_error_In; eauto|].
        rewrite Forall_forall in Hb. apply Hb. eapply nth_error_In; eauto. }
      rewrite Gt by auto. apply (A s d p e); auto.
    + intros s d e Hs He Hno. rewrite Gt by eauto. eapply B; eauto.
Qed.

Lemma subtour_same n S Mq deltas :
  length deltas = S -> shape S n Mq ->
  Forall (fun d => 2 <= length d /\ NoDup d /\ Forall (fun e => e < n) d) deltas ->
  exists R, py_subtour_update n deltas (inj Mq) = Some R /\ subtour_update n deltas (inj Mq) (np_zeros S n) = Some R
    /\ shape S n R.
Proof.
  intros HD HM Hd.
  destruct (py_subtour_ok n S Mq deltas) as (R & ER & SR & A & B); auto.
  { eapply Forall_impl; [|exact Hd]. cbn. intros d (H & X). split; auto. lia. }
  destruct (subtour_update_ok n S Mq deltas (np_zeros S n)) as (R' & ER' & SR' & A' & B'); auto.
  { apply shape_repeat. }
  { eapply Forall_impl; [|exact Hd]. cbn. intros d (H & X). split; auto. intros ->. cbn in H. lia. }
  exists R. split; auto. split; auto. rewrite ER'. f_equal. symmetry. apply (shape_ext S n); auto.
  intros s e Hs He. destruct (get_lt deltas s) as [d Hds]; [lia|].
  destruct (in_dec Nat.eq_dec e d) as [H1|H1].
  { apply In_nth_error in H1 as [p Hp]. destruct (A s d p e Hds Hp) as (v & -> & Mv).
    destruct (A' s d p e Hds Hp) as (v' & -> & Mv'). f_equal. eapply minsum_message_unique; eauto. }
  rewrite (B s d), (B' s d) by auto. symmetry. apply get2_repeat; auto.
Qed.

(** ** Edge equality constraints *)
Lemma relaxed_same n k M C E out :
  length E = n -> shape n k M -> shape n k C -> shape n k out -> edges_in k E -> no_self_loop E ->
  exists R, py_edge_to_degree_relaxed E (inj C) (inj M) = Some R /\
    edge_to_degree_relaxed n E (inj C) (inj M) out = Some R /\ shape n k R.
Proof.
  intros HE HM HC HO Hin Hns.
  destruct (edge_to_degree_relaxed_ok n k M C E out HE HM HC HO Hin Hns) as (Q & EQ & SQ & HQ).
  destruct (flip_ok n k M E HE HM Hin Hns) as (F & EF & SF & HF).
  exists (inj Q). split; [|split; [auto|apply shape_inj; auto]].
  unfold py_edge_to_degree_relaxed. change (py_flip E (inj M)) with (flip_matrix (inj M) E (inj M)).
  rewrite EF; cbn [bind]. rewrite (np_add2_inj n k) by auto. f_equal. f_equal.
  apply (qmat_ext n k); auto using qadd2_shape. intros i j Hi Hj. rewrite (qadd2_at n k) by auto.
  destruct (get_lt E i) as [[u v] Huv]; [lia|]. rewrite (HF i u v j), (HQ i u v j) by auto. reflexivity.
Qed.

Definition off_edge_zero (E : list (nat * nat)) (k : nat) (M : list (list Qc)) : Prop :=
  forall e u v w, get E e = Some (u, v) -> w < k -> w <> u -> w <> v -> qat M e w = 0%Qc.

Lemma row_sum_two n k E M e u v : length E = n -> shape n k M -> edges_in k E -> no_self_loop E ->
  off_edge_zero E k M -> get E e = Some (u, v) -> qsum (nth e M []) = (qat M e u + qat M e v)%Qc.
Proof.
  intros HE HM Hin Hns Hz Huv. assert (e < n) by (rewrite <- HE; eapply get_Some_lt; eauto).
  destruct (edges_in_get _ _ _ _ _ Hin Huv).
  unfold qat. apply (qsum_two _ k); auto.
  - apply (shape_nth n k); auto.
  - unfold no_self_loop in Hns. rewrite Forall_forall in Hns. apply (Hns (u, v)). eapply nth_error_In; eauto.
  - intros w Hw Hu Hv. apply (Hz e u v w); auto.
Qed.

(** a vector that is [g] on the indices [d] and zero elsewhere *)
Definition scatter (n : nat) (d : list nat) (g : nat -> Qc) : list Qc :=
  map (fun e => if existsb (Nat.eqb e) d then g e else 0%Qc) (seq 0 n).
Lemma np_put_scatter n d g : (forall e, In e d -> e < n) ->
  np_put (repeat n0 n) d (map Fin (map g d)) = Some (map Fin (scatter n d g)).
Proof.
  intros H. rewrite map_map.
  destruct (np_put_ok (repeat n0 n) d (fun e => Fin (g e))) as (v & E & L & G).
  { rewrite repeat_length; auto. }
  rewrite E. f_equal. rewrite repeat_length in L. apply list_ext_get; unfold scatter.
  { rewrite !map_length, seq_length; auto. }
  intros i Hi. rewrite L in Hi. rewrite G.
  rewrite map_map. unfold get at 2. rewrite (map_nth_error _ i (seq 0 n) (d:=i)).
  2:{ rewrite (nth_error_nth' _ 0) by (rewrite seq_length; lia). rewrite seq_nth by lia. reflexivity. }
  destruct (existsb (Nat.eqb i) d); auto. unfold get. apply (nth_error_repeat n0); auto.
Qed.
Lemma scatter_length n d g : length (scatter n d g) = n.
Proof. unfold scatter. rewrite map_length, seq_length; auto. Qed.
Lemma scatter_nth n d g e : e < n -> nth e (scatter n d g) 0%Qc = if existsb (Nat.eqb e) d then g e else 0%Qc.
Proof.
  intros H. unfold scatter. apply (@nth_error_nth). apply map_nth_error with (d := e).
  rewrite (nth_error_nth' _ 0) by (rewrite seq_length; auto). rewrite seq_nth by auto. reflexivity.
Qed.

Lemma np_take_rows n k (M : list (list Qc)) idx : shape n k M -> (forall i, In i idx -> i < n) ->
  np_take (inj M) idx = Some (inj (map (fun i => nth i M []) idx)).
Proof.
  intros S H. unfold inj at 2. rewrite map_map. apply np_take_ok. intros i Hi. unfold inj, get.
  apply map_nth_error. apply get_nth. destruct S; rewrite H0; auto.
Qed.
Lemma rows_shape n k (M : list (list Qc)) idx : shape n k M -> (forall i, In i idx -> i < n) ->
  shape (length idx) k (map (fun i => nth i M []) idx).
Proof.
  intros S H. split; [apply map_length|]. apply Forall_map, Forall_forall. intros i Hi.
  apply (shape_nth n k); auto.
Qed.
Lemma rows_col (M : list (list Qc)) idx e : col (map (fun i => nth i M []) idx) (length idx) e = map (fun s => qat M s e) idx.
Proof.
  unfold col. induction idx as [|i idx IH]; cbn [length seq map]; auto. f_equal.
  rewrite <- seq_shift, map_map. rewrite <- IH. apply map_ext. reflexivity.
Qed.

Lemma py_edge_to_subtour_ok n k S M Sub cost deltas :
  shape n k M -> length deltas = S -> S <> 0 -> shape S n Sub -> length cost = n ->
  Forall (Forall (fun e => e < n)) deltas ->
  exists Q, py_edge_to_subtour n deltas (map Fin cost) (inj M) (inj Sub) = Some (inj Q) /\ shape S n Q /\
    (forall s d e, get deltas s = Some d -> In e d ->
       qat Q s e = (nth e cost 0 + qsum (nth e M [])
                    + qsum (map (fun s' => qat Sub s' e) (others s (seq 0 S))))%Qc) /\
    (forall s d e, get deltas s = Some d -> e < n -> ~ In e d -> qat Q s e = 0%Qc).
Proof.
  intros HM HD H0 HS HC Hd. unfold py_edge_to_subtour. rewrite HD, row_sums_inj.
  rewrite Forall_forall in Hd.
  assert (HR : forall e, e < n -> nth e (map qsum M) 0%Qc = qsum (nth e M [])).
  { intros e He. change 0%Qc with (qsum []). apply (map_nth qsum). }
  assert (LM : length M = n) by (destruct HM; auto).
  destruct (Nat.eqb_spec S 1) as [E1|E1].
  - destruct (get_lt deltas 0) as [d Hd0]; [lia|]. rewrite Hd0; cbn [bind].
    assert (Hb : forall e, In e d -> e < n).
    { apply Forall_forall. apply Hd. eapply nth_error_In; eauto. }
    rewrite np_take_Fin by (rewrite map_length, LM; auto). cbn [bind].
    rewrite np_take_Fin by (rewrite HC; auto). cbn [bind].
    rewrite np_add_Fin by (rewrite !map_length; auto). cbn [bind]. rewrite qplus_map, np_put_scatter by auto.
    cbn [bind]. exists [scatter n d (fun a => (nth a (map qsum M) 0 + nth a cost 0)%Qc)].
    split; auto. split.
    { split; [cbn; lia|]. repeat constructor. apply scatter_length. }
    split.
    + intros s d' e Hs He. assert (s = 0) by (assert (s < length deltas) by (eapply get_Some_lt; eauto); lia). subst s.
      rewrite Hd0 in Hs. injection Hs as <-. unfold qat at 1. cbn [nth]. rewrite scatter_nth by auto.
      rewrite (proj2 (existsb_eqb_In e d)), HR by auto. rewrite E1. cbn. ring.
    + intros s d' e Hs He Hno. assert (s = 0) by (assert (s < length deltas) by (eapply get_Some_lt; eauto); lia). subst s.
      rewrite Hd0 in Hs. injection Hs as <-. unfold qat at 1. cbn [nth]. rewrite scatter_nth by auto.
      destruct (existsb (Nat.eqb e) d) eqn:X; auto. apply existsb_eqb_In in X. tauto.
  - pose (rowval := fun s => let d := nth s deltas [] in
      qplus (qplus (scatter n d (fun e => qsum (nth e M [])))
        (scatter n d (fun e => qsum (map (fun s' => qat Sub s' e) (others s (seq 0 S))))))
        (scatter n d (fun e => nth e cost 0%Qc))).
    exists (map rowval (seq 0 S)).
    assert (G : forall s, s < S -> get deltas s = Some (nth s deltas [])).
    { intros s Hs. apply get_nth. lia. }
    assert (L3 : forall s, length (rowval s) = n).
    { intros s. unfold rowval. rewrite !qplus_length, !scatter_length. lia. }
    split; [|split; [|split]].
    + unfold inj at 3. rewrite map_map. apply mapM_Some. intros s Hs. apply in_seq in Hs.
      rewrite G by lia. cbn [bind]. unfold rowval. set (d := nth s deltas []).
      assert (Hb : forall e, In e d -> e < n).
      { apply Forall_forall. apply Hd. apply nth_In. lia. }
      rewrite (np_take_rows n k) by auto. cbn [bind]. rewrite row_sums_inj, (map_map _ qsum), np_put_scatter by auto.
      cbn [bind]. rewrite np_take_Fin by (rewrite HC; auto). cbn [bind]. rewrite np_put_scatter by auto. cbn [bind].
      assert (HO : forall i, In i (others s (seq 0 S)) -> i < S).
      { intros i Hi. apply filter_In in Hi as [Hi _]. apply in_seq in Hi. lia. }
      change (all_but S s) with (others s (seq 0 S)).
      rewrite (np_take_rows S n) by auto. cbn [bind].
      assert (ON : length (others s (seq 0 S)) <> 0).
      { set (s1 := if s =? 0 then 1 else 0). assert (I1 : In s1 (others s (seq 0 S))).
        { apply filter_In. unfold s1. destruct (Nat.eqb_spec s 0) as [->|Hs0]; cbn [negb Nat.eqb].
          - split; auto. apply in_seq. lia.
          - split; [apply in_seq; lia|]. destruct s; [lia|]. reflexivity. }
        destruct (others s (seq 0 S)); [destruct I1 | cbn; lia]. }
      rewrite (column_sums_ok (length (others s (seq 0 S))) n) by (try apply (rows_shape S n); auto). cbn [bind].
      rewrite np_take_Fin by (rewrite map_length, seq_length; auto). cbn [bind].
      match goal with |- context [map Fin (map ?f d)] =>
        assert (MF : map f d = map (fun e => qsum (map (fun s' => qat Sub s' e) (others s (seq 0 S)))) d) end.
      { apply map_ext_in. intros e He. apply nth_error_nth.
        rewrite (map_nth_error _ e (seq 0 n) (d:=e)).
        2:{ rewrite (nth_error_nth' _ 0) by (rewrite seq_length; auto). rewrite seq_nth by auto. reflexivity. }
        rewrite rows_col. reflexivity. }
      rewrite MF.
      rewrite np_put_scatter by auto. cbn [bind].
      rewrite np_add_Fin by (rewrite !scatter_length; auto). cbn [bind].
      rewrite np_add_Fin by (rewrite qplus_length, !scatter_length; lia). reflexivity.
    + split; [rewrite map_length, seq_length; auto|]. apply Forall_map, Forall_forall. intros; apply L3.
    + intros s d e Hs He. assert (Ls : s < S) by (rewrite <- HD; eapply get_Some_lt; eauto).
      assert (Hb : e < n). { specialize (Hd d). rewrite Forall_forall in Hd. apply Hd; auto. eapply nth_error_In; eauto. }
      unfold qat at 1. rewrite (@nth_error_nth _ (map rowval (seq 0 S)) s (rowval s)).
      2:{ apply map_nth_error. rewrite (nth_error_nth' _ 0) by (rewrite seq_length; auto). rewrite seq_nth by auto. reflexivity. }
      unfold rowval. rewrite G in Hs by auto. injection Hs as ->.
      rewrite !nth_qplus by (rewrite ?qplus_length, ?scatter_length; lia). rewrite !scatter_nth by auto.
      rewrite (proj2 (existsb_eqb_In e d)) by auto. ring.
    + intros s d e Hs Hb He. assert (Ls : s < S) by (rewrite <- HD; eapply get_Some_lt; eauto).
      unfold qat at 1. rewrite (@nth_error_nth _ (map rowval (seq 0 S)) s (rowval s)).
      2:{ apply map_nth_error. rewrite (nth_error_nth' _ 0) by (rewrite seq_length; auto). rewrite seq_nth by auto. reflexivity. }
      unfold rowval. rewrite G in Hs by auto. injection Hs as ->.
      rewrite !nth_qplus by (rewrite ?qplus_length, ?scatter_length; lia). rewrite !scatter_nth by auto.
      destruct (existsb (Nat.eqb e) d) eqn:X; [apply existsb_eqb_In in X; tauto|]. ring.
Qed.

Lemma edge_to_subtour_same n k S M Sub cost E deltas :
  length E = n -> shape n k M -> length deltas = S -> S <> 0 -> shape S n Sub -> length cost = n ->
  edges_in k E -> no_self_loop E -> Forall (Forall (fun e => e < n)) deltas -> off_edge_zero E k M ->
  exists R, py_edge_to_subtour n deltas (map Fin cost) (inj M) (inj Sub) = Some R /\
    edge_to_subtour n deltas (map Fin cost) (inj M) (inj Sub) E = Some R /\ shape S n R.
Proof.
  intros HE HM HD H0 HS HC Hin Hns Hd Hz.
  destruct (py_edge_to_subtour_ok n k S M Sub cost deltas) as (Q & EQ & SQ & A & B); auto.
  destruct (edge_to_subtour_ok n k S M Sub cost E deltas) as (Q' & EQ' & SQ' & A' & B'); auto.
  exists (inj Q). split; auto. split; [|apply shape_inj; auto]. rewrite EQ'. f_equal. f_equal.
  apply (qmat_ext S n); auto. intros s e Hs He. destruct (get_lt deltas s) as [d Hds]; [lia|].
  destruct (in_dec Nat.eq_dec e d) as [I|I].
  - destruct (get_lt E e) as [[u v] Huv]; [lia|]. rewrite (A s d e), (A' s d e u v) by auto.
    rewrite (row_sum_two n k E M e u v) by auto. ring.
  - rewrite (B s d e), (B' s d e); auto.
Qed.

Lemma augmented_same n k S M Sub C E :
  length E = n -> shape n k M -> S <> 0 -> shape S n Sub -> shape n k C ->
  edges_in k E -> no_self_loop E -> off_edge_zero E k M -> off_edge_zero E k C ->
  exists R, py_edge_to_degree_augmented E (inj C) (inj M) (inj Sub) = Some R /\
    edge_to_degree_augmented n (inj M) (inj Sub) E (inj C) (np_zeros n k) = Some R /\ shape n k R.
Proof.
  intros HE HM H0 HS HC Hin Hns ZM ZC.
  destruct (edge_to_degree_augmented_ok n k S M Sub C E (np_zeros n k)) as (R & ER & SR & A & B); auto.
  { apply shape_repeat. }
  exists R. split; auto. unfold py_edge_to_degree_augmented.
  rewrite (column_sums_ok S n) by auto. cbn [bind].
  destruct (flip_ok n k M E HE HM Hin Hns) as (F & EF & SF & HF).
  change (py_flip E (inj M)) with (flip_matrix (inj M) E (inj M)). rewrite EF; cbn [bind]. rewrite HE.
  pose (z := fun e w => match get E e with Some (u, v) => if (u =? w) || (v =? w) then qsum (col Sub S e) else 0%Qc | None => 0%Qc end).
  set (Z := map (fun e => map (z e) (seq 0 k)) (seq 0 n)).
  assert (SZ : shape n k Z).
  { split; [unfold Z; rewrite map_length, seq_length; auto|]. unfold Z. apply Forall_map, Forall_forall. intros.
    rewrite map_length, seq_length; auto. }
  assert (NS : forall i j, j < i -> nth_error (seq 0 i) j = Some j).
  { intros i j Hj. rewrite (nth_error_nth' _ 0) by (rewrite seq_length; auto). rewrite seq_nth by auto. reflexivity. }
  assert (QZ : forall e w, e < n -> w < k -> qat Z e w = z e w).
  { intros e w He Hw. unfold qat. rewrite (@nth_error_nth _ Z e (map (z e) (seq 0 k))).
    2:{ unfold Z. apply (map_nth_error (fun e => map (z e) (seq 0 k))). auto. }
    apply nth_error_nth. apply map_nth_error. auto. }
  assert (EZ : map (fun r : list num => repeat n0 (length r)) (inj F) = np_zeros n k).
  { unfold np_zeros. destruct SF as [LF FF]. subst n. rewrite <- LF. clear -FF. unfold inj. induction FF as [|r F Hr FF IH]; cbn; auto.
    rewrite map_length, Hr. f_equal; auto. }
  rewrite EZ.
  match goal with |- context [for_up 0 n ?st0 ?bd] =>
    destruct (for_up_ind 0 n st0 bd (fun i o => shape n k o /\
      forall e w, e < n -> w < k -> get2 o e w = Some (Fin (if e <? i then z e w else 0%Qc)))) as (o & Eo & So & Go) end.
  - lia.
  - split; [apply shape_repeat|]. intros e w He Hw. apply get2_repeat; auto.
  - intros i o Hi (So & Go). destruct (get_lt E i) as [[u v] Huv]; [lia|]. rewrite Huv; cbn [bind].
    destruct (edges_in_get _ _ _ _ _ Hin Huv).
    rewrite (get_mapFin _ i n) by (rewrite ?map_length, ?seq_length; lia). cbn [bind].
    rewrite (@nth_error_nth _ _ i (qsum (col Sub S i))).
    2:{ rewrite (map_nth_error _ i (seq 0 n) (d:=i)); auto. apply NS; lia. }
    erewrite set2_lt by (eauto; lia). cbn [bind].
    erewrite set2_lt by (try apply shape_upd2; eauto; lia). eexists; split; [reflexivity|].
    split; [repeat apply shape_upd2; auto|]. intros e w He Hw.
    erewrite get2_upd2 by (try apply shape_upd2; eauto; lia). erewrite get2_upd2 by (eauto; lia).
    rewrite Go by auto. unfold z.
    destruct (Nat.eqb_spec i e) as [<-|Hne]; cbn [andb].
    + rewrite Huv. replace (i <? i + 1) with true by (symmetry; apply Nat.ltb_lt; lia).
      rewrite Nat.ltb_irrefl. destruct (v =? w), (u =? w); cbn [orb]; auto.
    + replace (e <? i + 1) with (e <? i); auto. destruct (Nat.ltb_spec e i), (Nat.ltb_spec e (i + 1)); auto; lia.
  - rewrite Eo; cbn [bind]. assert (o = inj Z) as ->.
    { apply (shape_ext n k); auto using shape_inj. intros e w He Hw. rewrite Go by auto.
      replace (e <? n) with true by (symmetry; apply Nat.ltb_lt; auto).
      rewrite (get2_inj n k) by auto. rewrite QZ by auto. reflexivity. }
    rewrite (np_add2_inj n k) by auto. cbn [bind]. rewrite (np_add2_inj n k) by auto using qadd2_shape.
    f_equal. symmetry. apply (shape_ext n k); auto using shape_inj, qadd2_shape.
    intros e w He Hw. rewrite (get2_inj n k) by auto using qadd2_shape.
    rewrite (qadd2_at n k), (qadd2_at n k), QZ by auto using qadd2_shape.
    destruct (get_lt E e) as [[u v] Huv]; [lia|]. rewrite (HF e u v w) by auto. unfold z, swap. rewrite Huv.
    destruct (A e u v Huv) as [A1 A2].
    rewrite (Nat.eqb_sym w u), (Nat.eqb_sym w v).
    destruct (Nat.eqb_spec u w) as [->|Hu].
    + rewrite A1. cbn [orb]. f_equal. f_equal. unfold col. ring.
    + destruct (Nat.eqb_spec v w) as [->|Hv]; cbn [orb].
      * rewrite A2. f_equal. f_equal. unfold col. ring.
      * rewrite (B e u v w) by auto. rewrite (ZM e u v w), (ZC e u v w) by auto.
        unfold np_zeros. rewrite get2_repeat by auto. unfold n0. reflexivity.
Qed.

(** ** Outputs *)
Lemma nth_map_qsum M e : nth e (map qsum M) 0%Qc = qsum (nth e M []).
Proof. change 0%Qc with (qsum []). apply (map_nth qsum). Qed.
Lemma extrinsic_relaxed_same n k M out : shape n k M -> length out = n ->
  extrinsic_relaxed (inj M) out = Some (py_extrinsic_relaxed (inj M)).
Proof.
  intros HM HO. destruct (extrinsic_relaxed_ok n k M out HM HO) as (q & E & L & H). rewrite E. f_equal.
  unfold py_extrinsic_relaxed. rewrite row_sums_inj. f_equal. apply nth_ext with (d := 0%Qc) (d' := 0%Qc).
  { rewrite map_length. destruct HM; lia. }
  intros e He. rewrite nth_map_qsum. apply H. lia.
Qed.
Lemma extrinsic_augmented_same n k S M Sub out : shape n k M -> shape S n Sub -> S <> 0 -> length out = n ->
  exists R, py_extrinsic_augmented (inj M) (inj Sub) = Some R /\
    extrinsic_augmented (inj M) (inj Sub) out = Some R /\ length R = n.
Proof.
  intros HM HS H0 HO. destruct (extrinsic_augmented_ok n k S M Sub out HM HS HO) as (q & E & L & H).
  exists (map Fin q). split; [|split; [auto|rewrite map_length; auto]].
  unfold py_extrinsic_augmented. rewrite (column_sums_ok S n) by auto. cbn [bind].
  rewrite row_sums_inj. assert (LM : length M = n) by (destruct HM; auto).
  rewrite np_add_Fin by (rewrite !map_length, seq_length; auto). f_equal. f_equal.
  apply nth_ext with (d := 0%Qc) (d' := 0%Qc).
  { rewrite qplus_length, !map_length, seq_length. lia. }
  intros e He. rewrite qplus_length, !map_length, seq_length in He.
  rewrite nth_qplus by (rewrite !map_length, seq_length; lia). rewrite nth_map_qsum, H by lia. f_equal.
  apply nth_error_nth. rewrite (map_nth_error _ e (seq 0 n) (d:=e)); auto.
  rewrite (nth_error_nth' _ 0) by (rewrite seq_length; lia). rewrite seq_nth by lia. reflexivity.
Qed.

(** ** Filtering *)
Lemma np_scale_inj c M : np_scale (Fin c) (inj M) = inj (map (map (Qcmult c)) M).
Proof. unfold np_scale, inj. rewrite !map_map. apply map_ext. intros r. rewrite !map_map. reflexivity. Qed.
Lemma scale_shape n k c (M : list (list Qc)) : shape n k M -> shape n k (map (map (Qcmult c)) M).
Proof.
  intros [L F]. split; [rewrite map_length; auto|]. rewrite Forall_map. eapply Forall_impl; [|exact F].
  intros r Hr. rewrite map_length; auto.
Qed.
Lemma scale_at c (M : list (list Qc)) i j : qat (map (map (Qcmult c)) M) i j = (c * qat M i j)%Qc.
Proof.
  unfold qat. change (@nil Qc) with (map (Qcmult c) []) at 1. rewrite map_nth.
  replace 0%Qc with (c * 0)%Qc at 1 by ring. apply map_nth.
Qed.

Lemma py_filtering_ok flag a iter n k D old O : shape n k D -> shape n k O ->
  (flag = true -> a <> 0%Qc) -> (on flag a = true -> 0 < iter -> old = Some (inj O)) ->
  exists Q old', py_filtering flag (Fin a) iter (inj D) old = Some (inj Q, old') /\ shape n k Q /\
    (forall i j, i < n -> j < k -> qat Q i j = blend1 flag a iter (qat D i j) (qat O i j)) /\
    (on flag a = true -> old' = Some (inj Q)).
Proof.
  intros HD HO Ha Hold. unfold py_filtering, blend1, on in *. destruct flag; cbn [andb negb] in *.
  - assert (Hz : neqb (Fin a) n0 = false).
    { pose proof (on_iff true a) as X. unfold on in X. cbn [andb] in X.
      destruct (neqb (Fin a) n0); auto. destruct X as [_ X]. discriminate X. auto. }
    rewrite Hz in *. cbn [negb andb] in *. change (nsub n1 (Fin a)) with (Fin (1 + - a)%Qc).
    destruct iter as [|iter]; cbn [Nat.eqb Nat.ltb Nat.leb andb].
    + rewrite np_scale_inj. do 2 eexists. split; [reflexivity|]. split; [apply scale_shape; auto|].
      split; auto. intros i j Hi Hj. rewrite scale_at. cbn. ring.
    + rewrite Hold by (auto; lia). cbn [bind]. rewrite !np_scale_inj.
      rewrite (np_add2_inj n k) by auto using scale_shape. cbn [bind]. do 2 eexists. split; [reflexivity|].
      split; [apply qadd2_shape; apply scale_shape; auto|]. split; auto. intros i j Hi Hj.
      rewrite (qadd2_at n k) by auto using scale_shape. rewrite !scale_at. cbn. ring.
  - rewrite !andb_false_r. cbn [andb]. do 2 eexists. split; [reflexivity|]. split; auto. split; auto. discriminate.
Qed.

Lemma filter_run_same flag a n k raws : (flag = true -> a <> 0%Qc) -> Forall (shape n k) raws ->
  forall iter O out pold, shape n k O -> shape n k out ->
  (on flag a = true -> 0 < iter -> pold = Some (inj O)) ->
  exists R O', filter_run flag (Fin a) n iter (map inj raws) (inj O) (inj out) = Some (R, O') /\
    py_filter_run flag (Fin a) iter (map inj raws) pold (inj out) = Some R.
Proof.
  intros Ha HR. induction HR as [|D raws HD HR IH]; intros iter O out pold HO Hout Hp; cbn [map filter_run py_filter_run].
  - do 2 eexists. split; reflexivity.
  - destruct (process_filtering_ok flag a iter n n k D O (inj out)) as (Q & O' & E & SQ & SO & HQ & HO');
      auto using shape_inj.
    destruct (py_filtering_ok flag a iter n k D pold O) as (Q2 & old' & E2 & SQ2 & HQ2 & Hold'); auto.
    assert (Q2 = Q) as ->.
    { apply (qmat_ext n k); auto. intros i j Hi Hj. rewrite HQ, HQ2; auto. }
    rewrite E, E2. cbn [bind].
    destruct (IH (S iter) O' Q old') as (R & O2 & E3 & E4); auto.
    { intros X _. rewrite Hold' by auto. f_equal. f_equal. symmetry. apply (qmat_ext n k); auto. }
    exists R, O2. split; auto.
Qed.
