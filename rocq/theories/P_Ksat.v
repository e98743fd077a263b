(** * Proofs about the K-SAT updates. *)
From Verif Require Import Num NumFacts Arr ArrFacts MinSum MinSumFacts M_Ksat
  P_Tsp_Constraints P_Kc_Trellis.
Local Open Scope nat_scope.

(** ** More closed forms *)
Definition value (v : num) : Prop := match v with Fin _ | PInf => True | _ => False end.
Lemma is_min_of_value P v : is_min_of P v -> value v.
Proof. destruct v; cbn; tauto. Qed.

Lemma is_min_of_sum P Q v w : is_min_of P v -> is_min_of Q w ->
  is_min_of (fun q => exists a b, P a /\ Q b /\ q = (a + b)%Qc) (nadd v w).
Proof.
  destruct v as [a| | |], w as [b| | |]; cbn; try tauto.
  - intros [A1 A2] [B1 B2]; split; eauto 6. intros r (x & y & X & Y & ->).
    specialize (A2 _ X); specialize (B2 _ Y). qlra.
  - intros _ B r (x & y & X & Y & _). eapply B; eauto.
  - intros A _ r (x & y & X & Y & _). eapply A; eauto.
  - intros A _ r (x & y & X & Y & _). eapply A; eauto.
Qed.

Lemma total_app m1 m2 x1 x2 : length x1 = length m1 ->
  total (m1 ++ m2) (x1 ++ x2) = (total m1 x1 + total m2 x2)%Qc.
Proof.
  revert x1; induction m1 as [|a m1 IH]; intros [|b x1] H; cbn in *; try lia.
  - qlra.
  - rewrite IH by lia. destruct b; qlra.
Qed.
Lemma cmin_app (al1 al2 : list bool -> Prop) m1 m2 v1 v2 :
  cmin al1 m1 v1 -> cmin al2 m2 v2 ->
  cmin (fun x => exists x1 x2, x = x1 ++ x2 /\ length x1 = length m1 /\ al1 x1 /\ al2 x2)
       (m1 ++ m2) (nadd v1 v2).
Proof.
  intros H1 H2. unfold cmin. eapply is_min_of_ext; [|apply (is_min_of_sum _ _ _ _ H1 H2)].
  intros q; split.
  - intros (x & L & (x1 & x2 & -> & L1 & A1 & A2) & ->).
    rewrite !app_length in L.
    exists (total m1 x1), (total m2 x2). split; [exists x1; auto|]. split; [exists x2; split; auto; lia|].
    apply total_app; auto.
  - intros (a & b & (x1 & L1 & A1 & ->) & (x2 & L2 & A2 & ->) & ->).
    exists (x1 ++ x2). rewrite !app_length. split; [lia|]. split; [eauto 8|].
    symmetry; apply total_app; auto.
Qed.
Lemma cmin_union (al1 al2 : list bool -> Prop) m v1 v2 :
  cmin al1 m v1 -> cmin al2 m v2 -> cmin (fun x => al1 x \/ al2 x) m (nmin v1 v2).
Proof.
  intros H1 H2. unfold cmin. eapply is_min_of_ext; [|apply (is_min_of_union _ _ _ _ H1 H2)].
  intros q; split.
  - intros (x & L & [A|A] & ->); [left|right]; eauto.
  - intros [(x & L & A & ->)|(x & L & A & ->)]; eauto 6.
Qed.
Lemma ones_app x y : ones (x ++ y) = ones x + ones y.
Proof. unfold ones. apply count_occ_app. Qed.

(** cheapest non-empty selection *)
Definition alo (m : list Qc) : num := nadd (nmax (nmins (map Fin m)) n0) (Fin (negsum m)).
Lemma cmin_alo m : cmin at_least_one m (alo m).
Proof. apply cmin_at_least_one. Qed.
Lemma alo_value m : value (alo m).
Proof. eapply is_min_of_value, cmin_alo. Qed.
Lemma alo_app p s : alo (p ++ s) = nmin (alo s) (nadd (alo p) (Fin (negsum s))).
Proof.
  apply (cmin_unique at_least_one (p ++ s)); [apply cmin_alo|].
  rewrite <- (nadd_n0_l (alo s)).
  eapply cmin_ext; [|apply cmin_union; [apply (cmin_app none at_least_one)|apply (cmin_app at_least_one any)];
    [apply cmin_none|apply cmin_alo|apply cmin_alo|apply cmin_any]].
  intros x L. split.
  - intros [(x1 & x2 & -> & L1 & A & B)|(x1 & x2 & -> & L1 & A & B)];
      unfold at_least_one, none in *; rewrite ones_app; lia.
  - intros A. rewrite app_length in L.
    assert (E : x = firstn (length p) x ++ skipn (length p) x) by (symmetry; apply firstn_skipn).
    destruct (ones (firstn (length p) x)) eqn:O.
    + left. exists (firstn (length p) x), (skipn (length p) x).
      repeat split; auto; [rewrite firstn_length; lia|].
      unfold at_least_one in *. rewrite E, ones_app, O in A. lia.
    + right. exists (firstn (length p) x), (skipn (length p) x).
      repeat split; auto; [rewrite firstn_length; lia|]. unfold at_least_one. lia.
Qed.
Lemma negsum_app p s : negsum (p ++ s) = (negsum p + negsum s)%Qc.
Proof. induction p as [|a p IH]; cbn; [qlra|]. rewrite IH. qlra. Qed.
Lemma alo_none m : nmin n0 (alo m) = Fin (negsum m).
Proof.
  apply (cmin_unique any m); [|apply cmin_any].
  eapply cmin_ext; [|apply (cmin_union none at_least_one); [apply cmin_none|apply cmin_alo]].
  intros x L. unfold any, none, at_least_one. split; auto. intros; lia.
Qed.
Lemma alo_nil : alo [] = PInf.
Proof. reflexivity. Qed.
Lemma alo_one c : alo [c] = Fin c.
Proof.
  change [c] with ([] ++ [c]).
  apply (cmin_unique at_least_one ([] ++ [c])); [apply cmin_alo|]. cbn [app].
  replace (Fin c) with (nmin PInf (nadd (Fin 0%Qc) (Fin c))).
  2:{ rewrite nmin_PInf_l by discriminate. apply nadd_n0_l. }
  apply cmin_cons.
  - eapply cmin_ext; [|apply cmin_any]. intros x L. unfold any, at_least_one; rewrite ones_cons.
    split; auto; lia.
  - apply cmin_impossible. intros x L. destruct x; cbn in L; [|lia]. unfold at_least_one; cbn; lia.
Qed.
Lemma at_least_one_message' m i : i < length m ->
  minsum_message at_least_one m i (nsub (Fin (negsum (remove_at i m))) (alo (remove_at i m))).
Proof.
  intros Hi. do 2 eexists. split; [|split; [|reflexivity]].
  - eapply best_iff; auto; [|apply cmin_any].
    intros y L. unfold at_least_one, any. rewrite ones_insert by lia. split; auto; lia.
  - eapply best_iff; auto; [|apply cmin_alo].
    intros y L. unfold at_least_one. rewrite ones_insert by lia. lia.
Qed.

(** ** Signed literals *)
Definition sgn (b : bool) : Qc := if b then 1%Qc else (- (1))%Qc.
Fixpoint lit_costs (sg : list bool) (m : list Qc) : list Qc :=
  match sg, m with
  | s :: sg, a :: m => (a * sgn s)%Qc :: lit_costs sg m
  | _, _ => []
  end.
Fixpoint lits (sg x : list bool) : list bool :=
  match sg, x with
  | s :: sg, b :: x => Bool.eqb b s :: lits sg x
  | _, _ => []
  end.
Fixpoint base (sg : list bool) (m : list Qc) : Qc :=
  match sg, m with
  | s :: sg, a :: m => ((if s then 0 else a) + base sg m)%Qc
  | _, _ => 0%Qc
  end.
Lemma lits_length sg x : length sg = length x -> length (lits sg x) = length x.
Proof. revert x; induction sg; intros [|b x] H; cbn in *; try lia. rewrite IHsg; lia. Qed.
Lemma lit_costs_length sg m : length sg = length m -> length (lit_costs sg m) = length m.
Proof. revert m; induction sg; intros [|b x] H; cbn in *; try lia. rewrite IHsg; lia. Qed.
Lemma lits_invol sg x : length sg = length x -> lits sg (lits sg x) = x.
Proof.
  revert x; induction sg as [|s sg IH]; intros [|b x] H; cbn in *; try lia; auto.
  rewrite IH by lia. f_equal. destruct b, s; auto.
Qed.
Lemma total_lits sg m x : length sg = length m -> length x = length m ->
  total m x = (total (lit_costs sg m) (lits sg x) + base sg m)%Qc.
Proof.
  revert m x; induction sg as [|s sg IH]; intros [|a m] [|b x] H1 H2; cbn in *; try lia.
  - qlra.
  - rewrite (IH m x) by lia. destruct s, b; unfold sgn; cbn; qlra.
Qed.
Lemma clause_ones sg x : length sg = length x -> (clause_ok sg x <-> at_least_one (lits sg x)).
Proof.
  revert x; induction sg as [|s sg IH]; intros [|b x] H; cbn in *; try lia.
  - unfold at_least_one; cbn. split; [|lia]. intros (j & s & b & A & _). destruct j; discriminate.
  - unfold at_least_one in *. rewrite ones_cons. injection H as H. specialize (IH x H). split.
    + intros (j & s' & b' & A & B & E). destruct j as [|j]; cbn in A, B.
      * injection A as <-; injection B as <-. subst b. rewrite eqb_reflx. lia.
      * assert (1 <= ones (lits sg x)). { apply IH. exists j, s', b'; auto. } lia.
    + intros A. destruct (Bool.eqb b s) eqn:E.
      * apply eqb_prop in E. exists 0, s, b. auto.
      * destruct IH as [_ IH]. destruct (IH A) as (j & s' & b' & ? & ? & ?).
        exists (S j), s', b'. auto.
Qed.

Lemma nth_error_lits sg x i s b : nth_error sg i = Some s -> nth_error x i = Some b ->
  nth_error (lits sg x) i = Some (Bool.eqb b s).
Proof.
  revert x i; induction sg as [|s' sg IH]; intros [|b' x] [|i] H1 H2; cbn in *; try congruence; auto.
Qed.
Lemma nth_lit_costs sg m i s : nth_error sg i = Some s -> length sg = length m ->
  nth i (lit_costs sg m) 0%Qc = (nth i m 0 * sgn s)%Qc.
Proof.
  revert m i; induction sg as [|s' sg IH]; intros [|a m] [|i] H1 H2; cbn in *; try congruence; try lia.
  auto.
Qed.

Definition shiftK (sg : list bool) (m : list Qc) (i : nat) (s : bool) : Qc :=
  (base sg m - (if s then 0 else nth i m 0))%Qc.

Lemma rest_lits sg m x i s b : length sg = length m -> length x = length m ->
  nth_error sg i = Some s -> nth_error x i = Some b ->
  rest i m x = (rest i (lit_costs sg m) (lits sg x) + shiftK sg m i s)%Qc.
Proof.
  intros H1 H2 Hs Hx. unfold rest, shiftK. rewrite (total_lits sg m x) by auto.
  rewrite (nth_error_nth _ _ false Hx), (nth_error_nth _ _ false (nth_error_lits _ _ _ _ _ Hs Hx)).
  rewrite (nth_lit_costs _ _ _ _ Hs) by auto.
  destruct s, b; unfold sgn; cbn [Bool.eqb]; qlra.
Qed.

Lemma best_clause sg m i s b v : length sg = length m -> nth_error sg i = Some s ->
  best at_least_one (lit_costs sg m) i (Bool.eqb b s) v ->
  best (clause_ok sg) m i b (nadd v (Fin (shiftK sg m i s))).
Proof.
  intros H1 Hs HB. unfold best. eapply is_min_of_ext; [|apply (is_min_of_shift _ _ _ HB)].
  assert (HL : length (lit_costs sg m) = length m) by (apply lit_costs_length; auto).
  intros q; split.
  - intros (x & L & A & N & ->). exists (rest i (lit_costs sg m) (lits sg x)). split.
    + exists (lits sg x). rewrite lits_length, HL by congruence. repeat split; auto.
      * apply clause_ones; auto; congruence.
      * apply nth_error_lits; auto.
    + eapply rest_lits; eauto.
  - intros (r & (y & L & A & N & ->) & ->). rewrite HL in L.
    exists (lits sg y). rewrite lits_length by congruence.
    assert (HN : nth_error (lits sg y) i = Some b).
    { rewrite (nth_error_lits _ _ _ _ _ Hs N). f_equal. destruct b, s; auto. }
    repeat split; auto.
    + apply clause_ones; [rewrite lits_length; congruence|]. rewrite lits_invol by congruence. auto.
    + rewrite (rest_lits sg m _ i s b) by (rewrite ?lits_length; congruence || auto).
      rewrite lits_invol by congruence. reflexivity.
Qed.

(** message of a clause towards its [i]-th variable *)
Definition clause_val (cs : list Qc) (i : nat) (s : bool) : num :=
  nmul (nsub (Fin (negsum (remove_at i cs))) (alo (remove_at i cs))) (Fin (sgn s)).

Lemma nmul_sgn_true v : nmul v (Fin (sgn true)) = v.
Proof. destruct v; cbn [nmul sgn]; auto; try reflexivity. f_equal. qlra. Qed.
Lemma nmul_sgn_false v : nmul v (Fin (sgn false)) = nopp v.
Proof. destruct v; cbn [nmul sgn nopp]; auto; try reflexivity. f_equal. qlra. Qed.

Lemma clause_message sg m i s : length sg = length m -> nth_error sg i = Some s ->
  minsum_message (clause_ok sg) m i (clause_val (lit_costs sg m) i s).
Proof.
  intros H1 Hs.
  assert (Hi : i < length (lit_costs sg m)).
  { rewrite lit_costs_length by auto. rewrite <- H1. eapply get_Some_lt; exact Hs. }
  set (cs := lit_costs sg m) in *.
  assert (B1 : best at_least_one cs i true (Fin (negsum (remove_at i cs)))).
  { eapply best_iff; auto; [|apply cmin_any].
    intros y L. unfold at_least_one, any. rewrite ones_insert by lia. split; auto; lia. }
  assert (B0 : best at_least_one cs i false (alo (remove_at i cs))).
  { eapply best_iff; auto; [|apply cmin_alo].
    intros y L. unfold at_least_one. rewrite ones_insert by lia. lia. }
  pose proof (alo_value (remove_at i cs)) as V. unfold clause_val.
  destruct s.
  - do 2 eexists. split; [apply best_clause; eauto|]. split; [apply best_clause; eauto|].
    rewrite nmul_sgn_true. destruct (alo (remove_at i cs)); cbn in V; try tauto; cbn [nadd nopp nsub]; auto.
    unfold nsub; cbn [nadd nopp]. f_equal. qlra.
  - do 2 eexists. split; [apply best_clause; eauto|]. split; [apply best_clause; eauto|].
    rewrite nmul_sgn_false. destruct (alo (remove_at i cs)); cbn in V; try tauto; auto.
    unfold nsub; cbn [nadd nopp]. f_equal. qlra.
Qed.

(** ** The clause trellis *)
Definition reads (k : nat) (cost : nat -> option num) (cs : list Qc) : Prop :=
  length cs = k /\ forall j c, get cs j = Some c -> cost j = Some (Fin c).

Lemma alo_notnan m : notnan (alo m).
Proof. pose proof (alo_value m) as V. destruct (alo m); cbn in V; try tauto; discriminate. Qed.
Lemma nadd_Fin_notnan v q : notnan v -> notnan (nadd v (Fin q)).
Proof. destruct v; cbn; unfold notnan; congruence. Qed.
Lemma negsum_one c : Fin (negsum [c]) = nmin n0 (Fin c).
Proof. rewrite <- (nadd_n0_l (Fin c)). unfold n0. rewrite nmin_add0. reflexivity. Qed.

Lemma ksat_forward_ok k cost cs tbl : reads k cost cs -> shape (k + 1) 2 tbl ->
  exists tbl', ksat_forward k cost tbl = Some tbl' /\ shape (k + 1) 2 tbl' /\
    forall j, j <= k -> get2 tbl' j 0 = Some n0 /\ get2 tbl' j 1 = Some (alo (firstn j cs)).
Proof.
  intros [Hl Hc] Hs. unfold ksat_forward.
  rewrite set_lt by (destruct Hs; lia); cbn [bind].
  match goal with |- context [for_up 0 k ?s ?b] =>
    destruct (for_up_ind 0 k s b (fun i t => shape (k + 1) 2 t /\
      forall j, j <= i -> get2 t j 0 = Some n0 /\ get2 t j 1 = Some (alo (firstn j cs))))
      as (t & Ht & HS & HP) end.
  - lia.
  - split; [apply shape_upd; auto|]. intros j Hj. assert (j = 0) by lia; subst.
    rewrite !get2_upd by (destruct Hs; lia). cbn. auto.
  - intros i t Hi [HS HP]. destruct (HP i) as [A0 A1]; [lia|].
    rewrite A0; cbn [bind]. rewrite (set2_lt (k + 1) 2) by (auto; lia); cbn [bind].
    pose proof (shape_upd2 _ _ t (i + 1) 0 n0 HS) as HS1.
    rewrite !(get2_upd2 (k + 1) 2) by (auto; lia).
    destruct (Nat.eqb_spec (i + 1) i) as [|Hii]; [lia|]. cbn [andb].
    rewrite A0, A1; cbn [bind].
    destruct (get_lt cs i) as [c Hci]; [lia|].
    rewrite (Hc _ _ Hci); cbn [bind].
    rewrite (set2_lt (k + 1) 2) by (auto; lia).
    eexists; split; [reflexivity|]. split; [apply shape_upd2; auto|].
    intros j Hj. rewrite !(get2_upd2 (k + 1) 2) by (auto; lia).
    destruct (Nat.eqb_spec (i + 1) j) as [<-|Hn]; cbn [andb Nat.eqb].
    + split; [reflexivity|]. f_equal. rewrite (firstn_succ _ _ _ Hci), alo_app, alo_one, negsum_one.
      rewrite nadd_n0_l. apply nmin_comm; [|discriminate].
      rewrite <- negsum_one. apply nadd_Fin_notnan, alo_notnan.
    + apply HP; lia.
  - exists t; auto.
Qed.

Lemma ksat_backward_ok k cost cs tbl : reads k cost cs -> shape (k + 1) 2 tbl ->
  exists tbl', ksat_backward k cost tbl = Some tbl' /\ shape (k + 1) 2 tbl' /\
    forall j, j <= k -> get2 tbl' j 1 = Some (Fin (negsum (skipn j cs))) /\
      (j < k -> get2 tbl' j 0 = Some (alo (skipn j cs))).
Proof.
  intros [Hl Hc] Hs. unfold ksat_backward.
  rewrite set_lt by (destruct Hs; lia); cbn [bind].
  match goal with |- context [for_down 0 k ?s ?b] =>
    destruct (for_down_ind 0 k s b (fun i t => shape (k + 1) 2 t /\
      forall j, i <= j <= k -> get2 t j 1 = Some (Fin (negsum (skipn j cs))) /\
        (j < k -> get2 t j 0 = Some (alo (skipn j cs)))))
      as (t & Ht & HS & HP) end.
  - lia.
  - split; [apply shape_upd; auto|]. intros j Hj. assert (j = k) by lia; subst j.
    rewrite !get2_upd by (destruct Hs; lia). rewrite Nat.eqb_refl. cbn. split; [|lia].
    rewrite skipn_all2 by lia. reflexivity.
  - intros i t Hi [HS HP]. destruct (HP (i + 1)) as [A1 A0]; [lia|].
    destruct (get_lt cs i) as [c Hci]; [lia|]. rewrite (Hc _ _ Hci); cbn [bind].
    pose proof (skipn_succ _ _ _ Hci) as Esk.
    assert (HT : exists t1, (if i =? k - 1 then set2 t i 0 (Fin c)
              else b0 <- get2 t (i + 1) 0 ;; b1 <- get2 t (i + 1) 1 ;;
                   set2 t i 0 (nmin b0 (nadd b1 (Fin c)))) = Some t1 /\
              t1 = upd2 t i 0 (alo (skipn i cs))).
    { destruct (Nat.eqb_spec i (k - 1)) as [Ei|Ei].
      - eexists; split; [apply (set2_lt (k + 1) 2); auto; lia|].
        rewrite Esk, (skipn_all2 cs) by lia. rewrite alo_one. reflexivity.
      - rewrite A0 by lia. cbn [bind]. rewrite A1; cbn [bind].
        eexists; split; [apply (set2_lt (k + 1) 2); auto; lia|]. f_equal.
        rewrite Esk. change (c :: skipn (i + 1) cs) with ([c] ++ skipn (i + 1) cs).
        rewrite alo_app, alo_one. f_equal. cbn [nadd]. f_equal. qlra. }
    destruct HT as (t1 & -> & ->); cbn [bind].
    pose proof (shape_upd2 _ _ t i 0 (alo (skipn i cs)) HS) as HS1.
    rewrite !(get2_upd2 (k + 1) 2) by (auto; lia).
    destruct (Nat.eqb_spec i (i + 1)) as [|Hii]; [lia|]. cbn [andb].
    rewrite A1; cbn [bind]. rewrite (set2_lt (k + 1) 2) by (auto; lia).
    eexists; split; [reflexivity|]. split; [apply shape_upd2; auto|].
    intros j Hj. rewrite !(get2_upd2 (k + 1) 2) by (auto; lia).
    destruct (Nat.eqb_spec i j) as [<-|Hn]; cbn [andb Nat.eqb].
    + split; [|auto]. rewrite nmin_add0, Esk. reflexivity.
    + apply HP; lia.
  - exists t; split; [exact Ht|]. split; auto. intros j Hj. apply HP; lia.
Qed.

(** solid, dashed and the outgoing value *)
Lemma solid_ok cs j c : get cs j = Some c ->
  nmin (nadd (nadd n0 (Fin (negsum (skipn (j + 1) cs)))) (Fin c))
       (nadd (nadd (alo (firstn j cs)) (Fin c)) (Fin (negsum (skipn (j + 1) cs))))
  = Fin (negsum (remove_at j cs) + c)%Qc.
Proof.
  intros H. rewrite nadd_n0_l, remove_at_split, negsum_app.
  replace (S j) with (j + 1) by lia.
  pose proof (alo_none (firstn j cs)) as A. pose proof (alo_value (firstn j cs)) as V.
  destruct (alo (firstn j cs)) as [a| | |]; cbn in V; try tauto.
  - unfold nmin, n0 in *; cbn [nadd nlt] in *.
    destruct (qltb_spec a 0) as [Ha|Ha]; injection A as A;
      destruct (qltb_spec (a + c + negsum (skipn (j + 1) cs)) (negsum (skipn (j + 1) cs) + c)) as [Hb|Hb];
      f_equal; try qlra; exfalso; qlra.
  - unfold nmin, n0 in *; cbn [nadd nlt] in *. injection A as A. f_equal. qlra.
Qed.

Lemma dashed_ok cs j k : length cs = k -> j < k ->
  (if j =? k - 1 then nadd (alo (firstn j cs)) (Fin (negsum (skipn (j + 1) cs)))
   else nmin (nadd n0 (alo (skipn (j + 1) cs)))
             (nadd (alo (firstn j cs)) (Fin (negsum (skipn (j + 1) cs)))))
  = alo (remove_at j cs).
Proof.
  intros Hl Hj. rewrite remove_at_split, alo_app. replace (S j) with (j + 1) by lia.
  rewrite nadd_n0_l. destruct (Nat.eqb_spec j (k - 1)) as [->|Hn]; auto.
  rewrite (skipn_all2 cs) by lia. rewrite alo_nil, nmin_PInf_l; auto.
  apply nadd_Fin_notnan, alo_notnan.
Qed.

Lemma clause_val_notnan cs i s : notnan (clause_val cs i s).
Proof.
  unfold clause_val. pose proof (alo_value (remove_at i cs)) as V.
  destruct s; [rewrite nmul_sgn_true|rewrite nmul_sgn_false];
    destruct (alo (remove_at i cs)); cbn in V; try tauto; discriminate.
Qed.
Lemma nabs_small v : notnan v -> nlt (nabs n0) (nabs v) = false -> v = n0.
Proof.
  intros Hn H. destruct v as [q| | |]; cbn in H; try discriminate; [|congruence].
  change (nabs n0) with (Fin 0%Qc) in H. unfold n0. f_equal.
  unfold nabs in H. destruct (qltb_spec q 0) as [Hq|Hq].
  - change (nlt (Fin 0%Qc) (Fin (- q)%Qc)) with (qltb 0 (- q)) in H.
    apply qltb_false in H. qlra.
  - change (nlt (Fin 0%Qc) (Fin q)) with (qltb 0 q) in H.
    apply qltb_false in H. qlra.
Qed.

Lemma zn_sgn t : pm1 t -> zn t = Fin (sgn (t =? 1)%Z).
Proof.
  unfold zn. intros [->| ->]; cbn [Z.eqb]; f_equal; apply Qc_is_canon; reflexivity.
Qed.
Lemma lit_costs_get sg m i s a : get sg i = Some s -> get m i = Some a ->
  get (lit_costs sg m) i = Some (a * sgn s)%Qc.
Proof.
  unfold get. revert m i; induction sg as [|s' sg IH]; intros [|b m] [|i] H1 H2; cbn in *; try congruence.
  auto.
Qed.

Definition clause_costs (M : list (list Qc)) (c : nat) (conx : list nat) (tys : list Z) : list Qc :=
  lit_costs (signs tys) (map (fun v => qat M c v) conx).

Lemma reads_cost nc nv k M c conx tys :
  shape nc nv M -> c < nc -> clause_wf nv k conx tys ->
  reads k (fun stage => row <- get (inj M) c ;; lit_cost row conx tys stage)
        (clause_costs M c conx tys).
Proof.
  intros HM Hc (L1 & L2 & ND & HB & HT).
  assert (LC : length (clause_costs M c conx tys) = k).
  { unfold clause_costs. rewrite lit_costs_length; unfold signs; rewrite !map_length; congruence. }
  split; auto. intros j x Hx.
  assert (Hj : j < k) by (rewrite <- LC; eapply get_Some_lt; eauto).
  destruct (get_lt conx j) as [v Hv]; [lia|].
  destruct (get_lt tys j) as [t Ht]; [lia|].
  assert (Hvn : v < nv). { rewrite Forall_forall in HB. apply HB. eapply nth_error_In; eauto. }
  assert (Hpm : pm1 t). { rewrite Forall_forall in HT. apply HT. eapply nth_error_In; eauto. }
  destruct (get_lt (inj M) c) as [row Hrow].
  { unfold inj; rewrite map_length. destruct HM; lia. }
  rewrite Hrow; cbn [bind]. unfold lit_cost. rewrite Hv; cbn [bind].
  pose proof (get2_inj nc nv M c v HM Hc Hvn) as G. unfold get2 in G. rewrite Hrow in G; cbn [bind] in G.
  rewrite G; cbn [bind]. rewrite Ht; cbn [bind]. rewrite (zn_sgn t Hpm). cbn [nmul].
  unfold clause_costs in Hx.
  rewrite (lit_costs_get _ _ j (t =? 1)%Z (qat M c v)) in Hx.
  - injection Hx as <-. reflexivity.
  - unfold signs. rewrite get_map, Ht. reflexivity.
  - rewrite get_map, Hv. reflexivity.
Qed.

Lemma ksat_one_ok nc nv k M conns types fwd bwd out c conx tys :
  shape nc nv M -> shape nc nv out -> c < nc ->
  get conns c = Some conx -> get types c = Some tys -> clause_wf nv k conx tys ->
  shape (k + 1) 2 fwd -> shape (k + 1) 2 bwd ->
  (forall v, v < nv -> get2 out c v = Some n0) ->
  exists fwd' bwd' out',
    ksat_one k (inj M) conns types (fwd, bwd, out) c = Some (fwd', bwd', out') /\
    shape (k + 1) 2 fwd' /\ shape (k + 1) 2 bwd' /\ shape nc nv out' /\
    (forall j v s, get conx j = Some v -> get (signs tys) j = Some s ->
       get2 out' c v = Some (clause_val (clause_costs M c conx tys) j s)) /\
    (forall v, v < nv -> ~ In v conx -> get2 out' c v = Some n0) /\
    (forall c' v, c' <> c -> get2 out' c' v = get2 out c' v).
Proof.
  intros HM HO Hc Hcx Hty Hwf HF HB Hz.
  pose proof (reads_cost nc nv k M c conx tys HM Hc Hwf) as HR.
  unfold ksat_one. rewrite Hcx, Hty; cbn [bind].
  set (cs := clause_costs M c conx tys) in *.
  destruct (ksat_forward_ok _ _ _ _ HR HF) as (f & E1 & S1 & P1).
  destruct (ksat_backward_ok _ _ _ _ HR HB) as (b & E2 & S2 & P2).
  rewrite E1; cbn [bind]. rewrite E2; cbn [bind].
  destruct Hwf as (L1 & L2 & ND & HBd & HT). destruct HR as [LC HR].
  match goal with |- context [for_up 0 k out ?body] =>
    destruct (for_up_ind 0 k out body (fun i o => shape nc nv o /\
      (forall j v s, j < i -> get conx j = Some v -> get (signs tys) j = Some s ->
         get2 o c v = Some (clause_val cs j s)) /\
      (forall j v, i <= j -> get conx j = Some v -> get2 o c v = Some n0) /\
      (forall v, v < nv -> ~ In v conx -> get2 o c v = Some n0) /\
      (forall c' v, c' <> c -> get2 o c' v = get2 out c' v)))
      as (o & E3 & S3 & A1 & A2 & A3 & A4) end.
  - lia.
  - split; auto. split; [intros; lia|]. split; [|split; auto].
    intros j v _ Hv. apply Hz. rewrite Forall_forall in HBd. apply HBd. eapply nth_error_In; eauto.
  - intros j o Hj (S3 & A1 & A2 & A3 & A4).
    destruct (P1 j) as [-> ->]; [lia|]. cbn [bind].
    destruct (P2 (j + 1)) as [-> B0]; [lia|]. cbn [bind].
    destruct (get_lt cs j) as [x Hx]; [lia|].
    rewrite (HR _ _ Hx); cbn [bind]. rewrite (solid_ok cs j x Hx).
    destruct (get_lt conx j) as [v Hv]; [lia|].
    destruct (get_lt tys j) as [t Ht]; [lia|].
    assert (Hvn : v < nv). { rewrite Forall_forall in HBd. apply HBd. eapply nth_error_In; eauto. }
    assert (Hpm : pm1 t). { rewrite Forall_forall in HT. apply HT. eapply nth_error_In; eauto. }
    assert (Hsg : get (signs tys) j = Some (t =? 1)%Z).
    { unfold signs. rewrite get_map, Ht. reflexivity. }
    assert (Hd : (if j =? k - 1 then Some (nadd (alo (firstn j cs)) (Fin (negsum (skipn (j + 1) cs))))
                  else b0 <- get2 b (j + 1) 0 ;;
                       Some (nmin (nadd n0 b0) (nadd (alo (firstn j cs)) (Fin (negsum (skipn (j + 1) cs))))))
                 = Some (alo (remove_at j cs))).
    { rewrite <- (dashed_ok cs j k) by (auto; lia).
      destruct (Nat.eqb_spec j (k - 1)) as [|Hn]; auto. rewrite B0 by lia. reflexivity. }
    rewrite Hd; cbn [bind]. rewrite Ht, Hv; cbn [bind].
    rewrite (A2 j v) by (auto; lia). cbn [bind].
    assert (EV : nmul (nsub (nsub (Fin (negsum (remove_at j cs) + x)) (alo (remove_at j cs))) (Fin x)) (zn t)
                 = clause_val cs j (t =? 1)%Z).
    { unfold clause_val. rewrite <- zn_sgn by auto. f_equal.
      pose proof (alo_value (remove_at j cs)) as V. destruct (alo (remove_at j cs)); cbn in V; try tauto; auto.
      unfold nsub; cbn [nadd nopp]. f_equal. qlra. }
    rewrite EV.
    destruct (nlt (nabs n0) (nabs (clause_val cs j (t =? 1)%Z))) eqn:EL.
    + rewrite (set2_lt nc nv) by auto. eexists; split; [reflexivity|].
      split; [apply shape_upd2; auto|].
      assert (HU : forall c' v', get2 (upd2 o c v (clause_val cs j (t =? 1)%Z)) c' v'
                 = if (c =? c') && (v =? v') then Some (clause_val cs j (t =? 1)%Z) else get2 o c' v').
      { intros. apply (get2_upd2 nc nv); auto. }
      split; [|split; [|split]].
      * intros j' v' s' Hj' Hv' Hs'. rewrite HU, Nat.eqb_refl.
        destruct (Nat.eqb_spec v v') as [<-|Hn]; cbn [andb].
        -- assert (j' = j) by (eapply NoDup_get; eauto). subst. congruence.
        -- eapply A1; eauto. assert (j' <> j) by (intros ->; congruence). lia.
      * intros j' v' Hj' Hv'. rewrite HU, Nat.eqb_refl.
        destruct (Nat.eqb_spec v v') as [<-|Hn]; cbn [andb].
        -- assert (j' = j) by (eapply NoDup_get; eauto). lia.
        -- apply (A2 j'); auto; lia.
      * intros v' Hv' Hni. rewrite HU, Nat.eqb_refl.
        destruct (Nat.eqb_spec v v') as [<-|Hn]; cbn [andb]; auto.
        exfalso; apply Hni. eapply nth_error_In; eauto.
      * intros c' v' Hc'. rewrite HU. destruct (Nat.eqb_spec c c'); [congruence|]; cbn [andb]; auto.
    + apply nabs_small in EL; [|apply clause_val_notnan].
      eexists; split; [reflexivity|]. split; auto. split; [|split; [|split]]; auto.
      * intros j' v' s' Hj' Hv' Hs'. destruct (Nat.eq_dec j' j) as [->|Hn].
        -- assert (v' = v) by congruence. assert (s' = (t =? 1)%Z) by congruence. subst.
           rewrite EL. apply (A2 j); auto.
        -- apply (A1 j'); auto; lia.
      * intros j' v' Hj' Hv'. apply (A2 j'); auto; lia.
  - rewrite E3; cbn [bind]. exists f, b, o. repeat (split; [first [assumption|reflexivity]|]).
    split; [|split; auto]. intros j v s Hv Hs. eapply A1; eauto.
    rewrite <- L1. eapply get_Some_lt; eauto.
Qed.

Lemma shape_zero n k m : shape n k m -> shape n k (zero_rows m).
Proof.
  intros [H1 H2]; split; [unfold zero_rows; rewrite map_length; auto|].
  unfold zero_rows. rewrite Forall_map. eapply Forall_impl; [|exact H2].
  intros; rewrite map_length; auto.
Qed.
Lemma get2_zero n k m i j : shape n k m -> i < n -> j < k -> get2 (zero_rows m) i j = Some n0.
Proof.
  intros Hs Hi Hj. destruct (get2_lt _ _ _ _ _ Hs Hi Hj) as [a Ha].
  unfold get2, zero_rows in *. rewrite get_map. destruct (get m i) as [r|]; cbn in *; try discriminate.
  rewrite get_map, Ha. reflexivity.
Qed.

Lemma ksat_update_ok nc nv k M out conns types :
  shape nc nv M -> shape nc nv out -> length conns = nc -> length types = nc ->
  (forall c conx tys, get conns c = Some conx -> get types c = Some tys -> clause_wf nv k conx tys) ->
  exists out', ksat_update nc k (inj M) out conns types = Some out' /\ shape nc nv out' /\
    (forall c conx tys, get conns c = Some conx -> get types c = Some tys ->
      (forall j v s, get conx j = Some v -> get (signs tys) j = Some s ->
         get2 out' c v = Some (clause_val (clause_costs M c conx tys) j s)) /\
      (forall v, v < nv -> ~ In v conx -> get2 out' c v = Some n0)).
Proof.
  intros HM HO LC LT Hwf. unfold ksat_update.
  match goal with |- context [for_up 0 nc ?st0 ?bd] =>
    destruct (for_up_ind 0 nc st0 bd (fun i st => exists f b o, st = (f, b, o) /\
      shape (k + 1) 2 f /\ shape (k + 1) 2 b /\ shape nc nv o /\
      (forall c conx tys, c < i -> get conns c = Some conx -> get types c = Some tys ->
        (forall j v s, get conx j = Some v -> get (signs tys) j = Some s ->
           get2 o c v = Some (clause_val (clause_costs M c conx tys) j s)) /\
        (forall v, v < nv -> ~ In v conx -> get2 o c v = Some n0)) /\
      (forall c v, i <= c < nc -> v < nv -> get2 o c v = Some n0)))
      as (st & E & f & b & o & -> & _ & _ & S3 & A & _) end.
  - lia.
  - do 3 eexists; split; [reflexivity|].
    assert (shape (k + 1) 2 (repeat [n0; n0] (k + 1))) by (apply (shape_repeat (k + 1) 2 n0)).
    split; [assumption|]. split; [assumption|]. split; [apply shape_zero; auto|].
    split; [intros; lia|]. intros. eapply get2_zero; eauto; lia.
  - intros c st Hc (f & b & o & -> & S1 & S2 & S3 & A & B).
    destruct (get_lt conns c) as [conx Hcx]; [lia|].
    destruct (get_lt types c) as [tys Hty]; [lia|].
    destruct (ksat_one_ok nc nv k M conns types f b o c conx tys)
      as (f' & b' & o' & E & S1' & S2' & S3' & P1 & P2 & P3); eauto; [lia|intros; apply B; lia|].
    eexists; split; [exact E|]. exists f', b', o'. split; [reflexivity|].
    repeat (split; [assumption|]). split.
    + intros c' conx' tys' Hc' Hcx' Hty'. destruct (Nat.eq_dec c' c) as [->|Hn].
      * assert (conx' = conx) by congruence. assert (tys' = tys) by congruence. subst. split; auto.
      * destruct (A c' conx' tys') as [Q1 Q2]; auto; [lia|]. split; intros; rewrite P3 by auto; eauto.
    + intros c' v Hc' Hv. rewrite P3 by lia. apply B; auto; lia.
  - rewrite E; cbn [bind]. exists o. split; [reflexivity|]. split; auto.
    intros c conx tys Hcx Hty. apply A; auto. rewrite <- LC. eapply get_Some_lt; eauto.
Qed.

(** ** Variable to clause *)
Lemma qsum_cons a l : qsum (a :: l) = (a + qsum l)%Qc.
Proof. reflexivity. Qed.
Lemma qsum_app l1 l2 : qsum (l1 ++ l2) = (qsum l1 + qsum l2)%Qc.
Proof.
  induction l1 as [|a l1 IH]; cbn [app].
  - change (qsum []) with 0%Qc. qlra.
  - rewrite !qsum_cons, IH. qlra.
Qed.
Lemma qsum_remove l i a : get l i = Some a -> qsum l = (qsum (remove_at i l) + a)%Qc.
Proof.
  unfold get. revert i; induction l as [|x l IH]; intros [|i] H; cbn [nth_error remove_at] in *; try congruence.
  - injection H as ->. rewrite qsum_cons. qlra.
  - rewrite !qsum_cons, (IH i H). qlra.
Qed.

Section VarUpdate.
  Context (nc nv : nat) (M : list (list Qc)) (metrics : list Qc) (used : list nat)
          (vconns : list (list nat)).
  Context (HM : shape nc nv M) (Hmet : length metrics = nv) (Hvc : length vconns = nv)
          (Hused : Forall (fun v => v < nv) used)
          (Hconn : forall v l, get vconns v = Some l -> Forall (fun c => c < nc) l).

  Let msg v c := qat M c v.
  Let conns v := nth v vconns [].
  Let total_v v := (qsum (map (msg v) (conns v)) + nth v metrics 0)%Qc.
  Let val c v := (total_v v - msg v c)%Qc.

  Lemma get_conns v : v < nv -> get vconns v = Some (conns v).
  Proof. intros H. unfold conns. apply get_nth. lia. Qed.
  Lemma conns_lt v c : v < nv -> In c (conns v) -> c < nc.
  Proof.
    intros H Hc. pose proof (Hconn v _ (get_conns v H)) as F. rewrite Forall_forall in F. auto.
  Qed.

  Lemma used_metrics_ok :
    exists um, foldM (fun um n => m <- get (map Fin metrics) n ;; set um n m) used (repeat n0 nv) = Some um /\
      length um = nv /\ (forall v, In v used -> get um v = Some (Fin (nth v metrics 0%Qc))) /\
      (forall v, v < nv -> ~ In v used -> get um v = Some n0).
  Proof.
    destruct (foldM_ind (fun um n => m <- get (map Fin metrics) n ;; set um n m)
      (fun done um => length um = nv /\
         (forall v, In v done -> get um v = Some (Fin (nth v metrics 0%Qc))) /\
         (forall v, v < nv -> ~ In v done -> get um v = Some n0)) used (repeat n0 nv))
      as (um & E & L & A & B).
    - rewrite repeat_length. split; auto. split; [intros v []|].
      intros v Hv _. apply get_repeat; auto.
    - intros done a rest um Heq (L & A & B).
      assert (Ha : a < nv).
      { rewrite Forall_forall in Hused. apply Hused. rewrite Heq. apply in_or_app; right; left; auto. }
      rewrite get_map, (get_nth metrics a 0%Qc) by lia. cbn [option_map bind].
      rewrite set_lt by lia. eexists; split; [reflexivity|]. rewrite upd_length. split; auto. split.
      + intros v Hv. rewrite get_upd by lia. destruct (Nat.eqb_spec a v) as [<-|Hn]; auto.
        apply A. apply in_app_or in Hv as [Hv|[Hv|[]]]; auto; congruence.
      + intros v Hv Hn. rewrite get_upd by lia. destruct (Nat.eqb_spec a v) as [<-|Hna].
        * exfalso; apply Hn, in_or_app; right; left; auto.
        * apply B; auto. intros Hi; apply Hn, in_or_app; auto.
    - eauto 6.
  Qed.

  Lemma sums_ok um : length um = nv ->
    (forall v, In v used -> get um v = Some (Fin (nth v metrics 0%Qc))) ->
    (forall v, v < nv -> ~ In v used -> get um v = Some n0) ->
    exists sums, for_up 0 nv (repeat n0 nv) (fun sums i =>
      conns <- get vconns i ;;
      sums <- for_up 0 (length conns) sums (fun sums j =>
        c <- get conns j ;;
        m <- get2 (inj M) c i ;;
        s <- get sums i ;;
        set sums i (nadd s m)) ;;
      s <- get sums i ;;
      u <- get um i ;;
      set sums i (nadd s u)) = Some sums /\ length sums = nv /\
      (forall v, In v used -> get sums v = Some (Fin (total_v v))).
  Proof.
    intros HL HU HN.
    match goal with |- context [for_up 0 nv ?st0 ?bd] =>
      destruct (for_up_ind 0 nv st0 bd (fun i s => length s = nv /\
        (forall v, v < i -> In v used -> get s v = Some (Fin (total_v v))) /\
        (forall v, i <= v < nv -> get s v = Some n0))) as (s & E & L & A & B) end.
    - lia.
    - rewrite repeat_length. split; auto. split; [intros; lia|]. intros; apply get_repeat; lia.
    - intros i s Hi (L & A & B). rewrite (get_conns i) by lia; cbn [bind].
      match goal with |- context [for_up 0 (length (conns i)) ?st0 ?bd] =>
        destruct (for_up_ind 0 (length (conns i)) st0 bd (fun j t => length t = nv /\
          get t i = Some (Fin (qsum (map (msg i) (firstn j (conns i))))) /\
          (forall v, v <> i -> get t v = get s v))) as (t & E & Lt & At & Bt) end.
      + lia.
      + split; auto. split; auto. rewrite B by lia. reflexivity.
      + intros j t Hj (Lt & At & Bt). destruct (get_lt (conns i) j) as [c Hc]; [lia|].
        rewrite Hc; cbn [bind].
        assert (Lc : c < nc) by (eapply (conns_lt i); [lia|eapply nth_error_In; eauto]).
        rewrite (get2_inj nc nv) by (auto; lia).
        cbn [bind]. rewrite At; cbn [bind]. rewrite set_lt by lia.
        eexists; split; [reflexivity|]. rewrite upd_length. split; auto. split.
        * rewrite get_upd_eq by lia. cbn [nadd]. do 2 f_equal.
          rewrite (firstn_succ _ _ _ Hc), map_app, qsum_app. cbn [map]. rewrite qsum_cons.
          unfold msg at 3. change (qsum []) with 0%Qc. qlra.
        * intros v Hv. rewrite get_upd_ne by auto. auto.
      + rewrite E; cbn [bind]. rewrite At; cbn [bind].
        destruct (get_lt um i) as [u Hu]; [lia|]. rewrite Hu; cbn [bind].
        rewrite set_lt by lia. eexists; split; [reflexivity|]. rewrite upd_length. split; auto. split.
        * intros v Hv Hin. rewrite get_upd by lia. destruct (Nat.eqb_spec i v) as [<-|Hn].
          -- rewrite (HU i Hin) in Hu. injection Hu as <-. cbn [nadd].
             rewrite firstn_all2 by lia. reflexivity.
          -- rewrite Bt by auto. apply A; auto; lia.
        * intros v Hv. rewrite get_upd_ne by lia. rewrite Bt by lia. apply B; lia.
    - exists s. split; [exact E|]. split; auto. intros v Hv. apply A; auto.
      rewrite Forall_forall in Hused; auto.
  Qed.

  (** the entries written so far *)
  Let vinv (W : nat -> nat -> Prop) (out : list (list num)) : Prop :=
    shape nc nv out /\ forall c v, c < nc -> v < nv ->
      (W c v -> get2 out c v = Some (Fin (val c v))) /\
      (~ W c v -> get2 out c v = Some n0) /\
      (get2 out c v = Some (Fin (val c v)) \/ get2 out c v = Some n0).

  Lemma write_ok W out c v : vinv W out -> c < nc -> v < nv ->
    exists old out', get2 out c v = Some old /\
      (if nlt (nabs old) (nabs (Fin (val c v))) then set2 out c v (Fin (val c v)) else Some out) = Some out' /\
      vinv (fun c' v' => W c' v' \/ (c' = c /\ v' = v)) out'.
  Proof.
    intros [HS HP] Hc Hv. destruct (HP c v Hc Hv) as (Q1 & Q2 & [E|E]).
    - exists (Fin (val c v)), out. split; auto. rewrite nlt_irrefl. split; auto. split; auto.
      intros c' v' Hc' Hv'. destruct (HP c' v' Hc' Hv') as (A1 & A2 & A3). repeat split; auto.
      intros [H|[-> ->]]; auto.
    - exists n0. destruct (nlt (nabs n0) (nabs (Fin (val c v)))) eqn:EL.
      + rewrite (set2_lt nc nv) by auto. eexists; split; [auto|]. split; [reflexivity|].
        split; [apply shape_upd2; auto|]. intros c' v' Hc' Hv'.
        rewrite (get2_upd2 nc nv) by auto. destruct (HP c' v' Hc' Hv') as (A1 & A2 & A3).
        destruct (Nat.eqb_spec c c') as [->|Hn1]; destruct (Nat.eqb_spec v v') as [->|Hn2]; cbn [andb];
          repeat split; auto; try (intros [H|[? ?]]; [auto|congruence]); intros H; exfalso; apply H; auto.
      + apply nabs_small in EL; [|discriminate]. exists out. split; auto. split; auto. split; auto.
        intros c' v' Hc' Hv'. destruct (HP c' v' Hc' Hv') as (A1 & A2 & A3). repeat split; auto.
        intros [H|[-> ->]]; auto. rewrite EL. auto.
  Qed.
  Lemma vinv_ext W W' out : (forall c v, W c v <-> W' c v) -> vinv W out -> vinv W' out.
  Proof.
    intros H [HS HP]. split; auto. intros c v Hc Hv. destruct (HP c v Hc Hv) as (A1 & A2 & A3).
    repeat split; auto; intros; [apply A1, H|apply A2]; auto. intros X; apply H in X; auto.
  Qed.

  Lemma variable_update_ok out : shape nc nv out ->
    exists out', variable_update nv (inj M) out used (map Fin metrics) vconns = Some out' /\
      shape nc nv out' /\
      (forall v l i c, In v used -> get vconns v = Some l -> get l i = Some c ->
         get2 out' c v = Some (Fin (nth v metrics 0 + qsum (map (fun c => qat M c v) (remove_at i l)))%Qc)) /\
      (forall c v, c < nc -> v < nv -> ~ (In v used /\ exists l, get vconns v = Some l /\ In c l) ->
         get2 out' c v = Some n0).
  Proof.
    intros HO. unfold variable_update.
    destruct used_metrics_ok as (um & E1 & L1 & A1 & B1). rewrite E1; cbn [bind].
    destruct (sums_ok um L1 A1 B1) as (sums & E2 & L2 & A2). rewrite E2; cbn [bind].
    match goal with |- context [for_up 0 (length used) ?st0 ?bd] =>
      destruct (for_up_ind 0 (length used) st0 bd
        (fun i o => vinv (fun c v => In v (firstn i used) /\ In c (conns v)) o)) as (o & E & HV) end.
    - lia.
    - split; [apply shape_zero; auto|]. intros c v Hc Hv. cbn [firstn In].
      pose proof (get2_zero nc nv out c v HO Hc Hv). repeat split; auto. tauto.
    - intros iv o Hi HV. destruct (get_lt used iv) as [v Hv]; [lia|]. rewrite Hv; cbn [bind].
      assert (Iv : In v used) by (eapply nth_error_In; eauto).
      assert (Lv : v < nv) by (rewrite Forall_forall in Hused; auto).
      rewrite (get_conns v Lv); cbn [bind].
      match goal with |- context [for_up 0 (length (conns v)) ?st0 ?bd] =>
        destruct (for_up_ind 0 (length (conns v)) st0 bd
          (fun j o => vinv (fun c w => (In w (firstn iv used) /\ In c (conns w)) \/
                                       (w = v /\ In c (firstn j (conns v)))) o)) as (o' & E & HV') end.
      + lia.
      + eapply vinv_ext; [|exact HV]. intros c w; cbn [firstn In]. tauto.
      + intros j o1 Hj HV1. destruct (get_lt (conns v) j) as [c Hc]; [lia|]. rewrite Hc; cbn [bind].
        assert (Lc : c < nc) by (eapply conns_lt; [exact Lv|eapply nth_error_In; eauto]).
        destruct (write_ok _ _ c v HV1 Lc Lv) as (old & o2 & Eo & Ew & HV2).
        rewrite Eo; cbn [bind]. rewrite (A2 v Iv); cbn [bind].
        rewrite (get2_inj nc nv) by auto; cbn [bind].
        change (nsub (Fin (total_v v)) (Fin (qat M c v))) with (Fin (val c v)).
        exists o2. split; [exact Ew|]. eapply vinv_ext; [|exact HV2]. intros c' w; cbn beta.
        rewrite (firstn_succ _ _ _ Hc), in_app_iff. cbn [In]. split.
        * intros [[H|[-> H]]|[-> ->]]; auto.
        * intros [H|[-> [H|[<-|[]]]]]; auto.
      + exists o'. split; [exact E|]. eapply vinv_ext; [|exact HV']. intros c w; cbn beta.
        rewrite (firstn_succ _ _ _ Hv), in_app_iff, (firstn_all2 (conns v)) by lia. cbn [In]. split.
        * intros [[H1 H2]|[-> H]]; auto.
        * intros [[H|[<-|[]]] H2]; auto.
    - exists o. split; [exact E|]. destruct HV as [HS HP]. split; auto.
      rewrite firstn_all2 in HP by lia. split.
      + intros v l i c Iv Hl Hc. assert (Lv : v < nv) by (rewrite Forall_forall in Hused; auto).
        assert (l = conns v) by (rewrite (get_conns v Lv) in Hl; congruence). subst l.
        assert (Ic : In c (conns v)) by (eapply nth_error_In; eauto).
        destruct (HP c v) as (Q & _ & _); auto; [eapply conns_lt; eauto|].
        rewrite Q by auto. do 2 f_equal. unfold val, total_v.
        rewrite (qsum_remove (map (msg v) (conns v)) i (msg v c)) by (rewrite get_map, Hc; auto).
        rewrite remove_at_map. unfold msg. qlra.
      + intros c v Hc Hv Hn. destruct (HP c v) as (_ & Q & _); auto. apply Q.
        intros [Iv Ic]. apply Hn. split; auto. exists (conns v). split; auto. apply get_conns; auto.
  Qed.
End VarUpdate.

Lemma others_notin a l : ~ In a l -> others a l = l.
Proof.
  unfold others. induction l as [|b l IH]; cbn; intros H; auto.
  destruct (Nat.eqb_spec b a); cbn; [exfalso; auto|]. f_equal; apply IH; auto.
Qed.
Lemma remove_others l i a : NoDup l -> get l i = Some a -> remove_at i l = others a l.
Proof.
  unfold get. revert i; induction l as [|b l IH]; intros [|i] ND H; cbn in H; try congruence.
  - injection H as ->. inversion ND; subst. cbn. rewrite Nat.eqb_refl. cbn. symmetry; apply others_notin; auto.
  - inversion ND; subst. cbn. destruct (Nat.eqb_spec b a) as [->|Hn]; cbn.
    + exfalso. apply nth_error_In in H. auto.
    + f_equal. apply IH; auto.
Qed.
