(** * Proofs about the degree and subtour updates. *)
From Verif Require Import Num NumFacts Arr ArrFacts MinSum MinSumFacts M_Tsp_Constraints.
Local Open Scope nat_scope.

Lemma firstn_succ {A} (l : list A) k a : get l k = Some a -> firstn (k + 1) l = firstn k l ++ [a].
Proof.
  unfold get. revert k; induction l as [|x l IH]; intros [|k] H; cbn in *; try congruence.
  f_equal; auto.
Qed.
Lemma skipn_succ {A} (l : list A) k a : get l k = Some a -> skipn k l = a :: skipn (k + 1) l.
Proof.
  unfold get. revert k; induction l as [|x l IH]; intros [|k] H; cbn in *; try congruence.
  auto.
Qed.
Lemma NoDup_get {A} (l : list A) i j a : NoDup l -> get l i = Some a -> get l j = Some a -> i = j.
Proof.
  intros H Hi Hj. eapply NoDup_nth_error; eauto.
  - eapply get_Some_lt; eauto.
  - unfold get in *; congruence.
Qed.

Definition fval (ms : list num) (k : nat) : num := fold_left nmin (firstn k ms) PInf.
Definition bval (ms : list num) (k : nat) : num := fold_left nmin (rev (skipn (k + 1) ms)) PInf.

Lemma fwd_pass_ok conn rd fwd ms :
  conn <> [] -> NoDup conn -> length ms = length conn ->
  (forall c, In c conn -> c < length fwd) ->
  (forall k c, get conn k = Some c -> rd c = get ms k) ->
  exists fwd', fwd_pass conn rd fwd = Some fwd' /\ length fwd' = length fwd /\
    (forall k c, get conn k = Some c -> get fwd' c = Some (fval ms k)).
Proof.
  intros Hne Hnd Hlen Hin Hrd. unfold fwd_pass.
  destruct (get_lt conn 0) as [c0 Hc0]; [destruct conn; cbn; [congruence|lia]|].
  rewrite Hc0; cbn [bind].
  assert (Hc0' : c0 < length fwd) by (apply Hin; eapply nth_error_In; eauto).
  rewrite set_lt by auto; cbn [bind].
  destruct (for_up_ind 1 (length conn) (upd fwd c0 PInf)
    (fun fwd stage => c <- get conn stage ;; p <- get conn (stage - 1) ;; a <- get fwd p ;;
                      m <- rd p ;; set fwd c (nmin a m))
    (fun i f => length f = length fwd /\
       forall k c, k < i -> get conn k = Some c -> get f c = Some (fval ms k)))
    as (f & Hf & HL & HP).
  - pose proof (get_Some_lt _ _ _ Hc0); lia.
  - split; [apply upd_length|]. intros k c Hk Hc. assert (k = 0) by lia; subst.
    rewrite Hc0 in Hc; injection Hc as <-. rewrite get_upd_eq by auto. reflexivity.
  - intros i f Hi [HL HP].
    destruct (get_lt conn i) as [c Hc]; [lia|].
    destruct (get_lt conn (i - 1)) as [p Hp]; [lia|].
    destruct (get_lt ms (i - 1)) as [m Hm]; [lia|].
    rewrite Hc, Hp; cbn [bind]. rewrite (HP (i - 1) p) by (auto; lia); cbn [bind].
    rewrite (Hrd _ _ Hp), Hm; cbn [bind].
    assert (c < length f) by (rewrite HL; apply Hin; eapply nth_error_In; eauto).
    rewrite set_lt by auto. eexists; split; [reflexivity|]. split; [rewrite upd_length; auto|].
    intros k c' Hk Hc'. rewrite get_upd by auto. destruct (Nat.eqb_spec c c') as [->|Hn].
    + assert (k = i) by (eapply NoDup_get; eauto). subst k.
      unfold fval. replace i with (i - 1 + 1) at 2 by lia. rewrite (firstn_succ _ _ _ Hm).
      rewrite fold_left_app. reflexivity.
    + apply HP; auto. assert (k <> i) by (intros ->; congruence). lia.
  - exists f. repeat split; auto. intros k c Hc. apply HP; auto. eapply get_Some_lt; eauto.
Qed.

Lemma bwd_pass_ok conn rd bwd ms :
  conn <> [] -> NoDup conn -> length ms = length conn ->
  (forall c, In c conn -> c + 1 < length bwd) ->
  (forall k c, get conn k = Some c -> rd c = get ms k) ->
  exists bwd', bwd_pass conn rd bwd = Some bwd' /\ length bwd' = length bwd /\
    (forall k c, get conn k = Some c -> get bwd' (c + 1) = Some (bval ms k)).
Proof.
  intros Hne Hnd Hlen Hin Hrd. unfold bwd_pass.
  destruct (length conn) as [|n] eqn:En; [destruct conn; cbn in *; congruence|].
  destruct (get_lt conn n) as [cl Hcl]; [lia|]. rewrite Hcl; cbn [bind].
  assert (Hcl' : cl + 1 < length bwd) by (apply Hin; eapply nth_error_In; eauto).
  rewrite set_lt by auto; cbn [bind].
  destruct (for_down_ind 1 (S n) (upd bwd (cl + 1) PInf)
    (fun bwd stage => c <- get conn stage ;; p <- get conn (stage - 1) ;; a <- get bwd (c + 1) ;;
                      m <- rd c ;; set bwd (p + 1) (nmin a m))
    (fun i f => length f = length bwd /\
       forall k c, i <= k + 1 -> get conn k = Some c -> get f (c + 1) = Some (bval ms k)))
    as (f & Hf & HL & HP).
  - lia.
  - split; [apply upd_length|]. intros k c Hk Hc. pose proof (get_Some_lt _ _ _ Hc).
    assert (k = n) by lia; subst.
    rewrite Hcl in Hc; injection Hc as <-. rewrite get_upd_eq by auto.
    unfold bval. rewrite skipn_all2 by lia. reflexivity.
  - intros i f Hi [HL HP].
    destruct (get_lt conn i) as [c Hc]; [lia|].
    destruct (get_lt conn (i - 1)) as [p Hp]; [lia|].
    destruct (get_lt ms i) as [m Hm]; [lia|].
    rewrite Hc, Hp; cbn [bind]. rewrite (HP i c) by (auto; lia); cbn [bind].
    rewrite (Hrd _ _ Hc), Hm; cbn [bind].
    assert (p + 1 < length f) by (rewrite HL; apply Hin; eapply nth_error_In; eauto).
    rewrite set_lt by auto. eexists; split; [reflexivity|]. split; [rewrite upd_length; auto|].
    intros k c' Hk Hc'. rewrite get_upd by auto. destruct (Nat.eqb_spec (p + 1) (c' + 1)) as [E|Hn].
    + assert (p = c') by lia. subst c'.
      assert (k = i - 1) by (eapply NoDup_get; eauto). subst k.
      unfold bval. replace (i - 1 + 1) with i by lia. rewrite (skipn_succ _ _ _ Hm).
      cbn [rev]. rewrite fold_left_app. reflexivity.
    + apply HP; auto. assert (k <> i - 1) by (intros ->; congruence). lia.
  - exists f. repeat split; auto. intros k c Hc. apply HP; auto. lia.
Qed.

Lemma out_pass_ok conn fwd bwd ms post (cell : nat -> nat * nat) wr out n m :
  NoDup conn ->
  (forall k c, get conn k = Some c -> get fwd c = Some (fval ms k)) ->
  (forall k c, get conn k = Some c -> get bwd (c + 1) = Some (bval ms k)) ->
  (forall out c v, wr out c v = set2 out (fst (cell c)) (snd (cell c)) v) ->
  (forall c, In c conn -> fst (cell c) < n /\ snd (cell c) < m) ->
  (forall c c', In c conn -> In c' conn -> cell c = cell c' -> c = c') ->
  shape n m out ->
  exists out', out_pass conn fwd bwd post wr out = Some out' /\ shape n m out' /\
    (forall k c, get conn k = Some c ->
       get2 out' (fst (cell c)) (snd (cell c)) = Some (post (nmin (fval ms k) (bval ms k)))) /\
    (forall i j, (forall c, In c conn -> cell c <> (i, j)) -> get2 out' i j = get2 out i j).
Proof.
  intros Hnd HF HB Hwr Hb Hinj Hs. unfold out_pass.
  destruct (for_up_ind 0 (length conn) out
    (fun out k => c <- get conn k ;; a <- get fwd c ;; b <- get bwd (c + 1) ;;
                  wr out c (post (nmin a b)))
    (fun i o => shape n m o /\
      (forall k c, k < i -> get conn k = Some c ->
         get2 o (fst (cell c)) (snd (cell c)) = Some (post (nmin (fval ms k) (bval ms k)))) /\
      (forall i j, (forall c, In c conn -> cell c <> (i, j)) -> get2 o i j = get2 out i j)))
    as (o & Ho & HS & HP & HQ).
  - lia.
  - split; [auto|split; auto]. intros; lia.
  - intros i o Hi (HS & HP & HQ).
    destruct (get_lt conn i) as [c Hc]; [lia|]. rewrite Hc; cbn [bind].
    rewrite (HF _ _ Hc), (HB _ _ Hc); cbn [bind]. rewrite Hwr.
    assert (Ic : In c conn) by (eapply nth_error_In; eauto).
    destruct (Hb c Ic). erewrite set2_lt by eauto. eexists; split; [reflexivity|].
    split; [apply shape_upd2; auto|]. split.
    + intros k c' Hk Hc'. erewrite get2_upd2 by eauto.
      destruct (Nat.eqb_spec (fst (cell c)) (fst (cell c')));
        destruct (Nat.eqb_spec (snd (cell c)) (snd (cell c'))); cbn [andb].
      1:{ assert (c = c').
          { apply Hinj; auto. eapply nth_error_In; eauto.
            rewrite (surjective_pairing (cell c)), (surjective_pairing (cell c')). congruence. }
          subst c'. assert (k = i) by (eapply NoDup_get; eauto). subst; auto. }
      all: apply HP; auto; assert (k <> i) by (intros ->; congruence); lia.
    + intros i' j' Hn. erewrite get2_upd2 by eauto.
      destruct (Nat.eqb_spec (fst (cell c)) i');
        destruct (Nat.eqb_spec (snd (cell c)) j'); cbn [andb]; auto.
      exfalso. apply (Hn c Ic). rewrite (surjective_pairing (cell c)). congruence.
  - exists o. split; [exact Ho|]. split; [auto|]. split; auto.
    intros k c Hc. apply HP; auto. eapply get_Some_lt; eauto.
Qed.

(** the two partial minima cover all the other messages *)
Lemma fval_bval qs k :
  nmin (fval (map Fin qs) k) (bval (map Fin qs) k) = nmins (map Fin (remove_at k qs)).
Proof.
  unfold fval, bval.
  rewrite !firstn_map, !skipn_map, <- !map_rev.
  rewrite !nmins_fold_left by (auto using Forall_Fin with num).
  rewrite !nmin_PInf_l by (auto using nmins_notnan, Forall_Fin).
  rewrite map_rev, nmins_rev by apply Forall_Fin.
  rewrite <- nmins_app, <- map_app by apply Forall_Fin.
  rewrite remove_at_split. replace (k + 1) with (S k) by lia. reflexivity.
Qed.

(** ** Edge lists of a node *)
Lemma connections_gen pre E u f s :
  no_self_loop E ->
  connections E u (length pre) f s =
    (f ++ filter (fun i => fst (nth i (pre ++ E) (0,0)) =? u) (seq (length pre) (length E)),
     s ++ filter (fun i => snd (nth i (pre ++ E) (0,0)) =? u) (seq (length pre) (length E))).
Proof.
  revert pre f s; induction E as [|[a b] E IH]; intros pre f s Hns; cbn.
  - rewrite !app_nil_r; auto.
  - inversion Hns as [|? ? Hab HE]; subst; cbn in Hab.
    rewrite !app_nth2, !Nat.sub_diag by lia; cbn.
    specialize (IH (pre ++ [(a, b)])). rewrite app_length in IH; cbn in IH.
    assert (A : forall f s, connections E u (length pre + 1) f s =
       (f ++ filter (fun i => fst (nth i (pre ++ (a, b) :: E) (0,0)) =? u) (seq (S (length pre)) (length E)),
        s ++ filter (fun i => snd (nth i (pre ++ (a, b) :: E) (0,0)) =? u) (seq (S (length pre)) (length E)))).
    { intros f' s'. rewrite IH by auto. rewrite <- !app_assoc; cbn.
      replace (length pre + 1) with (S (length pre)) by lia. reflexivity. }
    destruct (Nat.eqb_spec u a) as [->|Ha].
    + rewrite Nat.eqb_refl. destruct (Nat.eqb_spec b a); [congruence|].
      rewrite A, <- app_assoc; reflexivity.
    + destruct (Nat.eqb_spec a u); [congruence|].
      destruct (Nat.eqb_spec u b) as [->|Hb].
      * rewrite Nat.eqb_refl. rewrite A, <- app_assoc; reflexivity.
      * destruct (Nat.eqb_spec b u); [congruence|]. apply A.
Qed.
Lemma connections_ok E u : no_self_loop E ->
  connections E u 0 [] [] = (from_node E u, into_node E u).
Proof. intros H. apply (connections_gen [] E u [] [] H). Qed.

Lemma from_node_spec E u e : In e (from_node E u) <-> e < length E /\ fst (nth e E (0, 0)) = u.
Proof. unfold from_node. rewrite filter_In, in_seq, Nat.eqb_eq. intuition lia. Qed.
Lemma into_node_spec E u e : In e (into_node E u) <-> e < length E /\ snd (nth e E (0, 0)) = u.
Proof. unfold into_node. rewrite filter_In, in_seq, Nat.eqb_eq. intuition lia. Qed.
Lemma from_node_NoDup E u : NoDup (from_node E u).
Proof. apply NoDup_filter, seq_NoDup. Qed.
Lemma into_node_NoDup E u : NoDup (into_node E u).
Proof. apply NoDup_filter, seq_NoDup. Qed.

(** rational matrices *)
Lemma shape_inj n k M : shape n k M -> shape n k (inj M).
Proof.
  intros [H1 H2]; split; [unfold inj; rewrite map_length; auto|].
  unfold inj. rewrite Forall_map. eapply Forall_impl; [|exact H2]. intros; rewrite map_length; auto.
Qed.
Lemma get_nth {A} (l : list A) i d : i < length l -> get l i = Some (nth i l d).
Proof. intros. unfold get. apply nth_error_nth'; auto. Qed.
Lemma get2_inj n k M i j : shape n k M -> i < n -> j < k -> get2 (inj M) i j = Some (Fin (qat M i j)).
Proof.
  intros [H1 H2] Hi Hj. unfold get2, inj. rewrite get_map.
  rewrite (get_nth M i []) by lia; cbn [option_map bind]. rewrite get_map.
  assert (length (nth i M []) = k).
  { rewrite Forall_forall in H2. apply H2, nth_In; lia. }
  rewrite (get_nth _ j 0%Qc) by lia. reflexivity.
Qed.

Lemma nth_error_map_nth {A B} (f : A -> B) l k a : get l k = Some a -> get (map f l) k = Some (f a).
Proof. intros H. rewrite get_map, H. reflexivity. Qed.

(** one block (first or second half of a node) *)
Lemma degree_block n k Mq conn u fwd bwd out :
  shape n k Mq -> shape n k out -> u < k -> conn <> [] -> NoDup conn ->
  (forall c, In c conn -> c < n) -> length fwd = n + 1 -> length bwd = n + 1 ->
  exists fwd' bwd' out',
    fwd_pass conn (fun e => get2 (inj Mq) e u) fwd = Some fwd' /\
    bwd_pass conn (fun e => get2 (inj Mq) e u) bwd = Some bwd' /\
    out_pass conn fwd' bwd' nopp (fun out e v => set2 out e u v) out = Some out' /\
    length fwd' = n + 1 /\ length bwd' = n + 1 /\ shape n k out' /\
    (forall p e, get conn p = Some e -> exists v, get2 out' e u = Some v /\
       minsum_message exactly_one (map (fun e => qat Mq e u) conn) p v) /\
    (forall e w, ~ (In e conn /\ w = u) -> get2 out' e w = get2 out e w).
Proof.
  intros HM HO Hu Hne Hnd Hin Hf Hb.
  set (qs := map (fun e => qat Mq e u) conn).
  assert (Hrd : forall p c, get conn p = Some c -> get2 (inj Mq) c u = get (map Fin qs) p).
  { intros p c Hc. erewrite get2_inj; eauto. 2: apply Hin; eapply nth_error_In; eauto.
    unfold qs. rewrite map_map. rewrite (nth_error_map_nth _ _ _ _ Hc). auto. }
  assert (Hlen : length (map Fin qs) = length conn) by (unfold qs; rewrite !map_length; auto).
  destruct (fwd_pass_ok conn (fun e => get2 (inj Mq) e u) fwd (map Fin qs)) as (f & Hf1 & Hf2 & Hf3);
    auto. { intros c Hc; specialize (Hin c Hc); lia. }
  destruct (bwd_pass_ok conn (fun e => get2 (inj Mq) e u) bwd (map Fin qs)) as (b & Hb1 & Hb2 & Hb3);
    auto. { intros c Hc; specialize (Hin c Hc); lia. }
  destruct (out_pass_ok conn f b (map Fin qs) nopp (fun e => (e, u))
              (fun out e v => set2 out e u v) out n k) as (o & Ho1 & Ho2 & Ho3 & Ho4);
    auto. { intros c c' _ _ E; congruence. }
  exists f, b, o. repeat (split; [first [assumption|lia]|]). split.
  - intros p e Hp. eexists; split; [apply (Ho3 _ _ Hp)|].
    rewrite fval_bval. apply exactly_one_message. unfold qs; rewrite map_length.
    eapply get_Some_lt; eauto.
  - intros e w Hn. apply Ho4. intros c Hc E. injection E as -> ->. tauto.
Qed.

Lemma degree_node_ok n k Mq E st u fwd bwd out :
  length E = n -> shape n k Mq -> shape n k out -> u < k ->
  no_self_loop E -> from_node E u <> [] -> into_node E u <> [] ->
  length fwd = n + 1 -> length bwd = n + 1 -> st = (fwd, bwd, out) ->
  exists fwd' bwd' out', degree_node E (inj Mq) st u = Some (fwd', bwd', out') /\
    length fwd' = n + 1 /\ length bwd' = n + 1 /\ shape n k out' /\
    (forall p e, get (from_node E u) p = Some e -> exists v, get2 out' e u = Some v /\
       minsum_message exactly_one (map (fun e => qat Mq e u) (from_node E u)) p v) /\
    (forall p e, get (into_node E u) p = Some e -> exists v, get2 out' e u = Some v /\
       minsum_message exactly_one (map (fun e => qat Mq e u) (into_node E u)) p v) /\
    (forall e w, ~ ((In e (from_node E u) \/ In e (into_node E u)) /\ w = u) ->
       get2 out' e w = get2 out e w).
Proof.
  intros HE HM HO Hu Hns H1 H2 Hf Hb ->. unfold degree_node.
  rewrite connections_ok by auto.
  destruct (degree_block n k Mq (from_node E u) u fwd bwd out)
    as (f & b & o & E1 & E2 & E3 & L1 & L2 & S1 & P1 & Q1); auto using from_node_NoDup.
  { intros c Hc. apply from_node_spec in Hc. lia. }
  rewrite E1; cbn [bind]. rewrite E2; cbn [bind]. rewrite E3; cbn [bind].
  destruct (degree_block n k Mq (into_node E u) u (repeat n0 (length f)) (repeat n0 (length b)) o)
    as (f' & b' & o' & F1 & F2 & F3 & L1' & L2' & S1' & P1' & Q1'); auto using into_node_NoDup.
  { intros c Hc. apply into_node_spec in Hc. lia. }
  { rewrite repeat_length; auto. } { rewrite repeat_length; auto. }
  rewrite F1; cbn [bind]. rewrite F2; cbn [bind]. rewrite F3; cbn [bind].
  exists f', b', o'. split; [reflexivity|]. repeat (split; [assumption|]). split; [|split].
  - intros p e Hp. destruct (P1 p e Hp) as (v & Hv & Hm). exists v; split; auto.
    rewrite Q1'; auto. intros [HI _]. apply into_node_spec in HI.
    assert (HF : In e (from_node E u)) by (eapply nth_error_In; eauto).
    apply from_node_spec in HF. unfold no_self_loop in Hns; rewrite Forall_forall in Hns.
    apply (Hns (nth e E (0, 0))); [apply nth_In; lia|]. lia.
  - exact P1'.
  - intros e w Hn. rewrite Q1' by tauto. apply Q1. tauto.
Qed.

Lemma degree_update_ok n k Mq E out :
  length E = n -> shape n k Mq -> shape n k out ->
  no_self_loop E ->
  (forall u, u < k -> from_node E u <> [] /\ into_node E u <> []) ->
  exists out', degree_update k n E (inj Mq) out = Some out' /\ shape n k out' /\
    (forall u p e, u < k -> get (from_node E u) p = Some e -> exists v, get2 out' e u = Some v /\
       minsum_message exactly_one (map (fun e => qat Mq e u) (from_node E u)) p v) /\
    (forall u p e, u < k -> get (into_node E u) p = Some e -> exists v, get2 out' e u = Some v /\
       minsum_message exactly_one (map (fun e => qat Mq e u) (into_node E u)) p v) /\
    (forall u e, u < k -> ~ (In e (from_node E u) \/ In e (into_node E u)) ->
       get2 out' e u = get2 out e u).
Proof.
  intros HE HM HO Hns Hdeg. unfold degree_update.
  destruct (for_up_ind 0 k (repeat n0 (n + 1), repeat n0 (n + 1), out) (degree_node E (inj Mq))
    (fun i st => exists f b o, st = (f, b, o) /\ length f = n + 1 /\ length b = n + 1 /\ shape n k o /\
      (forall u p e, u < i -> get (from_node E u) p = Some e -> exists v, get2 o e u = Some v /\
         minsum_message exactly_one (map (fun e => qat Mq e u) (from_node E u)) p v) /\
      (forall u p e, u < i -> get (into_node E u) p = Some e -> exists v, get2 o e u = Some v /\
         minsum_message exactly_one (map (fun e => qat Mq e u) (into_node E u)) p v) /\
      (forall u e, ~ (u < i /\ (In e (from_node E u) \/ In e (into_node E u))) ->
         get2 o e u = get2 out e u)))
    as (st & Hst & f & b & o & -> & _ & _ & HS & H1 & H2 & H3).
  - lia.
  - do 3 eexists. split; [reflexivity|]. rewrite repeat_length.
    do 3 (split; [first [assumption|lia]|]). split; [|split]; auto; intros; lia.
  - intros u st Hu (f & b & o & -> & Lf & Lb & HS & H1 & H2 & H3).
    destruct (Hdeg u) as [D1 D2]; [lia|].
    destruct (degree_node_ok n k Mq E (f, b, o) u f b o)
      as (f' & b' & o' & E1 & Lf' & Lb' & S' & P1 & P2 & Q); auto; [lia|].
    exists (f', b', o'). split; auto. exists f', b', o'. split; [reflexivity|].
    repeat (split; [assumption|]). split; [|split].
    + intros w p e Hw Hp. destruct (Nat.eq_dec w u) as [->|Hn]; [apply P1; auto|].
      rewrite Q by tauto. apply H1; auto; lia.
    + intros w p e Hw Hp. destruct (Nat.eq_dec w u) as [->|Hn]; [apply P2; auto|].
      rewrite Q by tauto. apply H2; auto; lia.
    + intros w e Hn. rewrite Q. { apply H3. intros [? ?]; apply Hn; split; auto; lia. }
      intros [? ->]. apply Hn. split; auto; lia.
  - rewrite Hst; cbn [bind]. exists o. split; [reflexivity|]. split; auto.
    split; [|split]; auto. intros u e Hu Hn. apply H3. tauto.
Qed.

(** ** Subtour update *)
Lemma subtour_update_ok n S Mq deltas out :
  length deltas = S -> shape S n Mq -> shape S n out ->
  Forall (fun d => d <> [] /\ NoDup d /\ Forall (fun e => e < n) d) deltas ->
  exists out', subtour_update n deltas (inj Mq) out = Some out' /\ shape S n out' /\
    (forall s d p e, get deltas s = Some d -> get d p = Some e -> exists v, get2 out' s e = Some v /\
       minsum_message at_least_one (map (fun e => qat Mq s e) d) p v) /\
    (forall s d e, get deltas s = Some d -> ~ In e d -> get2 out' s e = get2 out s e).
Proof.
  intros HD HM HO Hd. unfold subtour_update. rewrite HD.
  destruct (for_up_ind 0 S (repeat n0 (n + 1), repeat n0 (n + 1), out) (subtour_one deltas (inj Mq))
    (fun i st => exists f b o, st = (f, b, o) /\ length f = n + 1 /\ length b = n + 1 /\ shape S n o /\
      (forall s d p e, s < i -> get deltas s = Some d -> get d p = Some e -> exists v, get2 o s e = Some v /\
         minsum_message at_least_one (map (fun e => qat Mq s e) d) p v) /\
      (forall s d e, s < i -> get deltas s = Some d -> ~ In e d -> get2 o s e = get2 out s e) /\
      (forall s e, i <= s -> get2 o s e = get2 out s e)))
    as (st & Hst & f & b & o & -> & _ & _ & HS & H1 & H2 & H3).
  - lia.
  - do 3 eexists. split; [reflexivity|]. rewrite repeat_length.
    do 3 (split; [first [assumption|lia]|]). split; [|split]; auto; intros; lia.
  - intros s st Hs (f & b & o & -> & Lf & Lb & HS & H1 & H2 & H3).
    destruct (get_lt deltas s) as [conn Hc]; [lia|].
    assert (Hdc : conn <> [] /\ NoDup conn /\ Forall (fun e => e < n) conn).
    { rewrite Forall_forall in Hd. apply Hd. eapply nth_error_In; eauto. }
    destruct Hdc as (Hne & Hnd & Hr). rewrite Forall_forall in Hr.
    unfold subtour_one. rewrite Hc; cbn [bind].
    set (qs := map (fun e => qat Mq s e) conn).
    assert (Hrd : forall p c, get conn p = Some c -> get2 (inj Mq) s c = get (map Fin qs) p).
    { intros p c Hpc. rewrite (get2_inj S n) by (auto; try lia; apply Hr; eapply nth_error_In; eauto).
      unfold qs. rewrite map_map. rewrite (nth_error_map_nth _ _ _ _ Hpc). auto. }
    assert (Hlen : length (map Fin qs) = length conn) by (unfold qs; rewrite !map_length; auto).
    destruct (fwd_pass_ok conn (fun e => get2 (inj Mq) s e) f (map Fin qs)) as (f' & Hf1 & Hf2 & Hf3);
      auto. { intros c Hcc; specialize (Hr c Hcc); lia. }
    destruct (bwd_pass_ok conn (fun e => get2 (inj Mq) s e) b (map Fin qs)) as (b' & Hb1 & Hb2 & Hb3);
      auto. { intros c Hcc; specialize (Hr c Hcc); lia. }
    destruct (out_pass_ok conn f' b' (map Fin qs) (fun v => nmin (nopp v) n0) (fun e => (s, e))
                (fun out e v => set2 out s e v) o S n) as (o' & Ho1 & Ho2 & Ho3 & Ho4);
      auto. { intros; cbn; split; [lia|auto]. } { intros c c' _ _ E; congruence. }
    rewrite Hf1; cbn [bind]. rewrite Hb1; cbn [bind]. rewrite Ho1; cbn [bind].
    eexists; split; [reflexivity|]. exists f', b', o'. split; [reflexivity|].
    repeat (split; [first [assumption|lia]|]). split; [|split].
    + intros s' d p e Hs' Hd' Hp. destruct (Nat.eq_dec s' s) as [->|Hn].
      * rewrite Hc in Hd'; injection Hd' as <-. eexists; split; [apply (Ho3 _ _ Hp)|].
        rewrite fval_bval. apply at_least_one_message. unfold qs; rewrite map_length.
        eapply get_Some_lt; eauto.
      * destruct (H1 s' d p e) as (v & Hv & Hm); auto; [lia|].
        exists v; split; auto. rewrite <- Hv. apply Ho4. intros c _ E; congruence.
    + intros s' d e Hs' Hd' He. rewrite Ho4.
      * destruct (Nat.eq_dec s' s) as [->|Hn]; [apply H3; lia|eapply H2; eauto; lia].
      * intros c Hcin E. injection E as -> ->. rewrite Hc in Hd'; injection Hd' as <-. auto.
    + intros s' e Hs'. rewrite Ho4; [apply H3; lia|]. intros c _ E; injection E as E1 E2; lia.
  - rewrite Hst; cbn [bind]. exists o. split; [reflexivity|]. split; auto. split.
    + intros s d p e Hd' Hp. apply H1; auto. pose proof (get_Some_lt _ _ _ Hd'); lia.
    + intros s d e Hd' Hp. eapply H2; eauto. pose proof (get_Some_lt _ _ _ Hd'); lia.
Qed.
