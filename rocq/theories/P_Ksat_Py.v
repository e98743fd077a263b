(** * Proofs about the Python front end of the K-SAT solver. *)
From Verif Require Import Num Arr ArrFacts M_Tsp_Run M_Ksat_Py.
From Verif Require Import P_Tsp_Py.
From Coq Require Import Permutation.
Local Open Scope nat_scope.

(** ** Specification vocabulary *)

(** clause [c] contains the literal of variable [v] with sign [t] (clause view) *)
Definition in_clause (f : formula) (c v : nat) (t : Z) : Prop :=
  exists j, get2 (y_conx f) c j = Some v /\ get2 (y_types f) c j = Some t.
(** the same, read from the variable view *)
Definition in_variable (f : formula) (c v : nat) (t : Z) : Prop :=
  exists j, get2 (y_vconx f) v j = Some c /\ get2 (y_vtypes f) v j = Some t.
(** the literal is true when variables with a non-zero decision are true *)
Definition lit_true (hd : list num) (v : nat) (t : Z) : Prop :=
  exists x, nth_error hd v = Some x /\ ((t = 1%Z /\ x <> n0) \/ (t = (-1)%Z /\ x = n0)).
Definition clause_true (f : formula) (hd : list num) (c : nat) : Prop :=
  exists v t, in_clause f c v t /\ lit_true hd v t.

(** the two views describe the same graph *)
Record consistent (nv : nat) (f : formula) : Prop := {
  c_conx : length (y_conx f) = y_nc f;
  c_types : length (y_types f) = y_nc f;
  c_vconx : length (y_vconx f) = nv;
  c_vtypes : length (y_vtypes f) = nv;
  c_rows : forall c r, nth_error (y_conx f) c = Some r ->
             exists ts, nth_error (y_types f) c = Some ts /\ length ts = length r;
  c_vrows : forall v r, nth_error (y_vconx f) v = Some r ->
              exists ts, nth_error (y_vtypes f) v = Some ts /\ length ts = length r;
  c_sign : forall c v t, in_clause f c v t -> t = 1%Z \/ t = (-1)%Z;
  c_range : Forall (fun v => v < nv) (y_used f);
  c_used : forall c v t, in_clause f c v t -> In v (y_used f);
  c_same : forall c v t, in_clause f c v t <-> in_variable f c v t }.

(** ** get_summary *)

Lemma mem_In x l : mem x l = true <-> In x l.
Proof.
  unfold mem. rewrite existsb_exists. split.
  - intros (y & H & E). apply Nat.eqb_eq in E. subst; auto.
  - intros H. exists x. split; auto. apply Nat.eqb_refl.
Qed.
Lemma mem_not_In x l : mem x l = false <-> ~ In x l.
Proof. rewrite <- mem_In. destruct (mem x l); split; congruence || (intros; congruence) || intuition. Qed.

Lemma neqb_n0_iff x : neqb x n0 = true <-> x = n0.
Proof.
  destruct x as [q| | |]; [|cbn; split; discriminate|cbn; split; discriminate|cbn; split; discriminate].
  rewrite neqb_zero_iff. unfold n0. split; [intros ->; auto|intros H; injection H; auto].
Qed.
Lemma truthy_iff x : truthy x = true <-> x <> n0.
Proof.
  unfold truthy. rewrite Bool.negb_true_iff. rewrite <- neqb_n0_iff.
  destruct (neqb x n0); split; congruence.
Qed.
Lemma falsy_iff x : truthy x = false <-> x = n0.
Proof.
  unfold truthy. rewrite Bool.negb_false_iff. apply neqb_n0_iff.
Qed.

Lemma mapM_all {A B} (g : A -> option B) l :
  (forall a, In a l -> exists b, g a = Some b) ->
  exists r, mapM g l = Some r /\ length r = length l /\
    (forall b, In b r <-> exists a, In a l /\ g a = Some b).
Proof.
  induction l as [|a l IH]; intros H.
  - exists []. cbn. split; [auto|split; auto]. intros b; split; [tauto|intros (x & [] & _)].
  - destruct (H a) as [b Hb]; [left; auto|].
    destruct IH as (r & E & L & I); [intros; apply H; right; auto|].
    exists (b :: r). cbn. rewrite Hb. cbn. rewrite E. cbn. split; [auto|split; [congruence|]].
    intros b'. split.
    + intros [<- | K]; [exists a; auto|]. apply I in K. destruct K as (x & K1 & K2). exists x; auto.
    + intros (x & [<- | K1] & K2); [left; congruence|]. right. apply I. exists x; auto.
Qed.

Lemma in_positions {A} (m : list (list A)) i j :
  In (i, j) (positions m) <-> exists r, nth_error m i = Some r /\ j < length r.
Proof.
  unfold positions. rewrite in_concat. split.
  - intros (l & Hl & Hij). apply in_map_iff in Hl. destruct Hl as (i' & <- & Hi).
    apply in_map_iff in Hij. destruct Hij as (j' & E & Hj). injection E as -> ->.
    apply in_seq in Hi. apply in_seq in Hj.
    exists (nth i m []). split; [apply nth_error_nth'; lia|lia].
  - intros (r & Hr & Hj). exists (map (pair i) (seq 0 (length (nth i m [])))). split.
    + apply in_map_iff. exists i. split; auto. apply in_seq. split; [lia|].
      cbn. apply nth_error_Some. congruence.
    + apply in_map_iff. exists j. split; auto. apply in_seq. rewrite (nth_error_nth _ _ _ Hr). lia.
Qed.

Lemma hits_ok nv f want vars : consistent nv f -> exists l, hits f want vars = Some l /\
  forall c, In c l <-> exists v, In v vars /\ in_variable f c v want.
Proof.
  intros W. unfold hits.
  match goal with |- context [mapM ?g ?l0] => destruct (mapM_all g l0) as (r & E & _ & I) end.
  - intros [i j] H. apply filter_In in H. destruct H as [H _]. apply in_positions in H.
    destruct H as (ts & H1 & H2). cbn [fst snd].
    assert (Hi : i < length (y_vconx f)).
    { rewrite (c_vconx _ _ W), <- (c_vtypes _ _ W). apply nth_error_Some. congruence. }
    destruct (nth_error (y_vconx f) i) as [r|] eqn:Er; [|apply nth_error_None in Er; lia].
    destruct (c_vrows _ _ W _ _ Er) as (ts' & K1 & K2).
    assert (ts' = ts) by congruence. subst ts'.
    destruct (nth_error r j) as [c|] eqn:Ej; [|apply nth_error_None in Ej; lia].
    exists c. unfold get2, get. rewrite Er. cbn. auto.
  - exists r. split; auto. intros c. rewrite I. split.
    + intros ([i j] & H & G). cbn [fst snd] in *. apply filter_In in H. cbn [fst snd] in H.
      destruct H as [H K]. apply andb_prop in K. destruct K as [K1 K2].
      apply mem_In in K2. exists i. split; auto. exists j. split; auto.
      apply in_positions in H. destruct H as (ts & H1 & H2).
      unfold get2, get. rewrite H1. cbn. rewrite (nth_error_nth _ _ _ H1) in K1.
      apply Z.eqb_eq in K1. rewrite <- K1. apply nth_error_nth'; auto.
    + intros (v & Hv & j & G1 & G2). exists (v, j). cbn [fst snd]. split; auto.
      apply filter_In. cbn [fst snd]. unfold get2, get in G2.
      destruct (nth_error (y_vtypes f) v) as [ts|] eqn:Et; [|discriminate]. cbn in G2. split.
      * apply in_positions. exists ts. split; auto. apply nth_error_Some. congruence.
      * rewrite (nth_error_nth _ _ _ Et), (nth_error_nth _ _ _ G2), Z.eqb_refl.
        apply mem_In in Hv. rewrite Hv. auto.
Qed.

(** decision-dependent part of the summary, without the checks *)
Definition is_true (hd : list num) (l : nat * Z) : bool :=
  let b := truthy (nth (fst l) hd n0) in
  ((snd l =? 1)%Z && b) || ((snd l =? -1)%Z && negb b).
Definition lits (f : formula) (c : nat) : list (nat * Z) :=
  combine (nth c (y_conx f) []) (nth c (y_types f) []).
Definition unsat (f : formula) (hd : list num) : list nat :=
  filter (fun c => negb (existsb (is_true hd) (lits f c))) (seq 0 (y_nc f)).

Lemma nth_error_combine {A B} (a : list A) (b : list B) j x y :
  nth_error (combine a b) j = Some (x, y) <-> nth_error a j = Some x /\ nth_error b j = Some y.
Proof.
  revert b j. induction a as [|a0 a IH]; intros [|b0 b] [|j]; cbn; split; try (intros H; discriminate);
    try (intros [H1 H2]; discriminate).
  - intros H. injection H as -> ->. auto.
  - intros [H1 H2]. congruence.
  - apply IH.
  - apply IH.
Qed.

Lemma in_lits f c v t : In (v, t) (lits f c) <-> in_clause f c v t.
Proof.
  unfold lits, in_clause, get2, get. split.
  - intros H. apply In_nth_error in H. destruct H as [j H]. apply nth_error_combine in H.
    destruct H as [H1 H2]. exists j.
    destruct (nth_error (y_conx f) c) as [r|] eqn:Er.
    2:{ rewrite nth_overflow in H1 by (apply nth_error_None; auto). destruct j; discriminate. }
    destruct (nth_error (y_types f) c) as [ts|] eqn:Et.
    2:{ rewrite nth_overflow in H2 by (apply nth_error_None; auto). destruct j; discriminate. }
    rewrite (nth_error_nth _ _ _ Er) in H1. rewrite (nth_error_nth _ _ _ Et) in H2. cbn. auto.
  - intros (j & H1 & H2).
    destruct (nth_error (y_conx f) c) as [r|] eqn:Er; [|discriminate].
    destruct (nth_error (y_types f) c) as [ts|] eqn:Et; [|discriminate].
    cbn in *. rewrite (nth_error_nth _ _ _ Er), (nth_error_nth _ _ _ Et).
    apply (nth_error_In _ j). apply nth_error_combine. auto.
Qed.

Lemma is_true_iff nv f hd c v t : consistent nv f -> length hd = nv -> in_clause f c v t ->
  is_true hd (v, t) = true <-> lit_true hd v t.
Proof.
  intros W L H. assert (Hv : v < nv).
  { apply (c_used _ _ W) in H. apply (proj1 (Forall_forall _ _) (c_range _ _ W)). auto. }
  unfold is_true, lit_true. cbn [fst snd].
  rewrite Bool.orb_true_iff, !Bool.andb_true_iff, Bool.negb_true_iff, !Z.eqb_eq.
  rewrite truthy_iff, falsy_iff.
  assert (E : nth_error hd v = Some (nth v hd n0)) by (apply nth_error_nth'; lia).
  rewrite E. split.
  - intros K. eexists; split; [reflexivity|]. tauto.
  - intros (x & K1 & K2). injection K1 as <-. tauto.
Qed.

Lemma unsat_iff nv f hd c : consistent nv f -> length hd = nv ->
  In c (unsat f hd) <-> c < y_nc f /\ ~ clause_true f hd c.
Proof.
  intros W L. unfold unsat. rewrite filter_In, in_seq. split.
  - intros [H1 H2]. split; [lia|]. intros (v & t & H & T).
    apply Bool.negb_true_iff in H2. rewrite <- Bool.not_true_iff_false in H2. apply H2.
    apply existsb_exists. exists (v, t). split; [apply in_lits; auto|].
    apply (is_true_iff nv f hd c); auto.
  - intros [H1 H2]. split; [lia|]. apply Bool.negb_true_iff. rewrite <- Bool.not_true_iff_false.
    intros H. apply existsb_exists in H. destruct H as ((v & t) & H & T).
    apply in_lits in H. apply H2. exists v, t. split; auto. apply (is_true_iff nv f hd c); auto.
Qed.

Lemma combine_used hd used us : mapM (get hd) used = Some us ->
  combine used us = map (fun v => (v, nth v hd n0)) used.
Proof.
  revert us. induction used as [|a l IH]; intros us H; [reflexivity|].
  cbn in H. destruct (get hd a) as [x|] eqn:Ea; [|discriminate]. cbn in H.
  destruct (mapM (get hd) l) as [us'|] eqn:E; [|discriminate]. injection H as <-. cbn.
  rewrite (IH us') by auto. unfold get in Ea. rewrite (nth_error_nth _ _ _ Ea). auto.
Qed.

Lemma filter_map_fst (p : num -> bool) hd l :
  map fst (filter (fun q : nat * num => p (snd q)) (map (fun v => (v, nth v hd n0)) l))
  = filter (fun v => p (nth v hd n0)) l.
Proof. induction l; cbn; auto. destruct (p (nth a hd n0)); cbn; congruence. Qed.

Lemma get_summary_ok nv f hd : consistent nv f -> length hd = nv ->
  exists s, get_summary f hd = Some s /\
    v_active s = filter (fun v => truthy (nth v hd n0)) (y_used f) /\
    v_inactive s = filter (fun v => negb (truthy (nth v hd n0))) (y_used f) /\
    (forall c, In c (v_sat s) <-> clause_true f hd c) /\
    v_unsat s = unsat f hd.
Proof.
  intros W L. unfold get_summary.
  destruct (mapM_all (get hd) (y_used f)) as (us & E & _ & _).
  { intros a Ha. apply get_lt. rewrite L. apply (proj1 (Forall_forall _ _) (c_range _ _ W)); auto. }
  rewrite E. cbn [bind]. rewrite (combine_used _ _ _ E).
  rewrite (filter_map_fst truthy), (filter_map_fst (fun x => negb (truthy x))).
  set (act := filter (fun v => truthy (nth v hd n0)) (y_used f)).
  set (ina := filter (fun v => negb (truthy (nth v hd n0))) (y_used f)).
  destruct (hits_ok nv f 1 act W) as (l1 & E1 & I1). rewrite E1. cbn [bind].
  destruct (hits_ok nv f (-1) ina W) as (l2 & E2 & I2). rewrite E2. cbn [bind].
  eexists; split; [reflexivity|]. cbn.
  assert (S : forall c, In c (l1 ++ l2) <-> clause_true f hd c).
  { intros c. rewrite in_app_iff, I1, I2. split.
    - intros [(v & Hv & H) | (v & Hv & H)]; apply (c_same _ _ W) in H; apply filter_In in Hv;
        destruct Hv as [U Hv].
      + exists v, 1%Z. split; auto. apply (is_true_iff nv f hd c); auto.
        unfold is_true. cbn [fst snd]. rewrite Hv. auto.
      + exists v, (-1)%Z. split; auto. apply (is_true_iff nv f hd c); auto.
    - intros (v & t & H & T). apply (is_true_iff nv f hd c v t W L H) in T.
      pose proof (c_used _ _ W _ _ _ H) as U. unfold is_true in T. cbn [fst snd] in T.
      apply Bool.orb_true_iff in T. rewrite !Bool.andb_true_iff, !Z.eqb_eq in T.
      destruct T as [[-> T] | [-> T]]; apply (c_same _ _ W) in H; [left|right];
        exists v; split; auto; apply filter_In; auto. }
  split; [auto|split; [auto|split; [auto|]]].
  apply filter_ext_in. intros c Hc. apply in_seq in Hc.
  destruct (mem c (l1 ++ l2)) eqn:M.
  - apply mem_In, S in M. destruct M as (v & t & H & T). cbn. symmetry. apply Bool.negb_false_iff.
    apply existsb_exists. exists (v, t). split; [apply in_lits; auto|apply (is_true_iff nv f hd c); auto].
  - apply mem_not_In in M. cbn. symmetry. apply Bool.negb_true_iff, Bool.not_true_iff_false.
    intros K. apply M, S. apply existsb_exists in K. destruct K as ((v & t) & H & T).
    apply in_lits in H. exists v, t. split; auto. apply (is_true_iff nv f hd c); auto.
Qed.

Lemma summary_unsat nv f hd s : consistent nv f -> length hd = nv -> get_summary f hd = Some s ->
  v_unsat s = unsat f hd.
Proof. intros W L H. destruct (get_summary_ok nv f hd W L) as (s' & E & _ & _ & _ & U). congruence. Qed.

(** ** post-processing *)

Lemma fold_break_ok {S A} (body : S -> A -> option (S * bool)) (I : S -> Prop) l s :
  I s -> (forall s a, In a l -> I s -> exists s' b, body s a = Some (s', b) /\ I s') ->
  exists s', fold_break body l s = Some s' /\ I s'.
Proof.
  revert s. induction l as [|a l IH]; intros s Hs Hb; cbn.
  - eauto.
  - destruct (Hb s a) as (s' & b & E & H'); [left; auto|auto|]. rewrite E. cbn [bind].
    destruct b; [eauto|]. apply IH; auto. intros; apply Hb; auto. right; auto.
Qed.

Lemma foldM_ok {S A} (body : S -> A -> option S) (I : S -> Prop) l s :
  I s -> (forall s a, In a l -> I s -> exists s', body s a = Some s' /\ I s') ->
  exists s', foldM body l s = Some s' /\ I s'.
Proof.
  revert s. induction l as [|a l IH]; intros s Hs Hb; cbn.
  - eauto.
  - destruct (Hb s a) as (s' & E & H'); [left; auto|auto|]. rewrite E. cbn [bind].
    apply IH; auto. intros; apply Hb; auto. right; auto.
Qed.

Definition no_unsat (f : formula) (hd : list num) : bool := negb (nonempty (unsat f hd)).
(** the flag belongs to the current decisions *)
Definition flagged (nv : nat) (f : formula) (o : ks_obj) : Prop :=
  length (k_hd o) = nv /\ k_flag o = no_unsat f (k_hd o).
(** [old] is the number of violated clauses of the current decisions, at most [N] *)
Definition counted (nv : nat) (f : formula) (N : nat) (st : ks_obj * nat) : Prop :=
  flagged nv f (fst st) /\ snd st = length (unsat f (k_hd (fst st))) /\ snd st <= N.

Lemma flag_of_unsat f hd s : v_unsat s = unsat f hd -> flag_of s = no_unsat f hd.
Proof. unfold flag_of, no_unsat. intros ->. auto. Qed.

Lemma try_flip_flagged nv f st var val : consistent nv f -> var < nv -> flagged nv f (fst st) ->
  exists st' b, try_flip f st var val = Some (st', b) /\ flagged nv f (fst st').
Proof.
  intros W Hv H. destruct st as [o old]. cbn [fst snd] in *. unfold try_flip.
  destruct H as [L Fl].
  rewrite (set_lt (k_hd o)) by lia. cbn [bind].
  destruct (get_summary_ok nv f (upd (k_hd o) var val) W) as (s & Es & _ & _ & _ & Us).
  { rewrite upd_length; auto. }
  rewrite Es. cbn [bind]. destruct (length (v_unsat s) <? old) eqn:C.
  - cbn [bind]. eexists _, _. split; [reflexivity|]. unfold flagged. cbn [fst k_hd k_flag].
    split; [rewrite upd_length; auto|apply flag_of_unsat; auto].
  - eexists _, _. split; [reflexivity|]. split; auto.
Qed.
Lemma try_flip_counted nv f N st var val : consistent nv f -> var < nv -> counted nv f N st ->
  exists st' b, try_flip f st var val = Some (st', b) /\ counted nv f N st'.
Proof.
  intros W Hv H. destruct st as [o old]. unfold counted in *. cbn [fst snd] in *. unfold try_flip.
  destruct H as ([L Fl] & O & B).
  rewrite (set_lt (k_hd o)) by lia. cbn [bind].
  destruct (get_summary_ok nv f (upd (k_hd o) var val) W) as (s & Es & _ & _ & _ & Us).
  { rewrite upd_length; auto. }
  rewrite Es. cbn [bind]. destruct (length (v_unsat s) <? old) eqn:C.
  - cbn [bind]. eexists _, _. split; [reflexivity|]. unfold flagged. cbn [fst snd k_hd k_flag].
    apply Nat.ltb_lt in C. split; [split; [rewrite upd_length; auto|apply flag_of_unsat; auto]|].
    split; [rewrite Us; auto|lia].
  - eexists _, _. split; [reflexivity|]. split; [split; auto|auto].
Qed.

Lemma literals_ok nv f c : consistent nv f -> c < y_nc f -> literals f c = Some (lits f c).
Proof.
  intros W Hc. unfold literals, lits.
  destruct (nth_error (y_conx f) c) as [r|] eqn:Er.
  2:{ apply nth_error_None in Er. rewrite (c_conx _ _ W) in Er. lia. }
  destruct (c_rows _ _ W _ _ Er) as (ts & Et & Lt).
  unfold get. rewrite Er, Et. cbn [bind]. rewrite (nth_error_nth _ _ _ Er), (nth_error_nth _ _ _ Et).
  rewrite (mapM_Some _ (fun i => (nth i r 0, nth i ts 0%Z))).
  - f_equal. clear - Lt. revert ts Lt. induction r as [|x r IH]; intros [|t ts] Lt; try discriminate; auto.
    cbn [length seq map combine]. f_equal. rewrite <- seq_shift, map_map. cbn. apply IH. cbn in Lt. lia.
  - intros i Hi. apply in_seq in Hi. rewrite (nth_error_nth' r 0), (nth_error_nth' ts 0%Z) by lia. auto.
Qed.

Lemma clause_var nv f c v t : consistent nv f -> In (v, t) (lits f c) -> v < nv.
Proof.
  intros W H. apply in_lits, (c_used _ _ W) in H.
  apply (proj1 (Forall_forall _ _) (c_range _ _ W)); auto.
Qed.

Lemma in_common_of s a b e : In e (common_of s a b) -> In e a.
Proof.
  unfold common_of. rewrite in_flat_map. intros (e1 & H1 & H2). apply in_flat_map in H2.
  destruct H2 as (e2 & _ & H2).
  destruct ((fst e1 =? fst e2) && _ && _) in H2; [|destruct H2]. destruct H2 as [<- | []]. auto.
Qed.

Lemma common_elements_ok nv f s hd : consistent nv f -> v_unsat s = unsat f hd ->
  exists l, common_elements f s = Some l /\ Forall (fun e => fst e < nv) l.
Proof.
  intros W U. unfold common_elements. rewrite U.
  apply (foldM_ok _ (fun l => Forall (fun e => fst e < nv) l)); [constructor|].
  intros acc c Hc Ha. unfold unsat in Hc. apply filter_In in Hc. destruct Hc as [Hc _]. apply in_seq in Hc.
  rewrite (literals_ok nv) by (auto; lia). cbn [bind].
  apply (foldM_ok _ (fun l => Forall (fun e => fst e < nv) l)); auto.
  intros acc' r Hr Ha'. apply filter_In in Hr. destruct Hr as [Hr _].
  apply filter_In in Hr. destruct Hr as [Hr _]. apply in_seq in Hr.
  rewrite (literals_ok nv) by (auto; lia). cbn [bind]. eexists; split; [reflexivity|].
  apply Forall_app. split; auto. apply Forall_forall. intros [v t] H. apply filter_In in H.
  destruct H as [H _]. apply in_common_of in H. cbn. apply (clause_var nv f c v t); auto.
Qed.

Lemma phase1_ok nv f o N : consistent nv f -> flagged nv f o -> v_unsat (k_sum o) = unsat f (k_hd o) ->
  length (unsat f (k_hd o)) <= N ->
  exists o', phase1 f o = Some o' /\ flagged nv f o' /\ get_summary f (k_hd o') = Some (k_sum o') /\
    length (unsat f (k_hd o')) <= N.
Proof.
  intros W Fl U B. unfold phase1.
  destruct (common_elements_ok nv f (k_sum o) (k_hd o) W U) as (l & El & Hl). rewrite El. cbn [bind].
  match goal with |- context [fold_break ?bd ?l0 ?st0] =>
    destruct (fold_break_ok bd (counted nv f N) l0 st0) as ([o' old'] & E & C) end.
  - split; [auto|]. cbn [fst snd]. rewrite U. auto.
  - intros st e He Hst. apply (try_flip_counted nv); auto. apply (proj1 (Forall_forall _ _) Hl); auto.
  - rewrite E. cbn [bind]. destruct C as ([L' F'] & O' & B'). cbn [fst snd] in *.
    destruct (get_summary_ok nv f (k_hd o') W L') as (s & Es & _).
    rewrite Es. cbn [bind]. eexists; split; [reflexivity|]. unfold flagged. cbn [k_hd k_flag k_sum].
    split; [auto|split; [auto|lia]].
Qed.

Lemma index_of_lt x l : In x l -> exists i, index_of x l = Some i /\ i < length l.
Proof.
  induction l as [|a l IH]; intros H; [destruct H|]. cbn [index_of].
  destruct (a =? x) eqn:E; [exists 0; split; [auto|cbn; lia]|].
  apply Nat.eqb_neq in E. destruct H as [H | H]; [contradiction|].
  destruct (IH H) as (i & Ei & Li). rewrite Ei. cbn. exists (S i). split; [auto|lia].
Qed.

Lemma row_at nv f c : consistent nv f -> c < y_nc f ->
  exists r, nth_error (y_conx f) c = Some r /\ Forall (fun v => v < nv) r.
Proof.
  intros W Hc. destruct (nth_error (y_conx f) c) as [r|] eqn:Er.
  2:{ apply nth_error_None in Er. rewrite (c_conx _ _ W) in Er. lia. }
  exists r. split; auto. apply Forall_forall. intros v Hv.
  destruct (c_rows _ _ W _ _ Er) as (ts & Et & Lt).
  apply In_nth_error in Hv. destruct Hv as [j Hj].
  destruct (nth_error ts j) as [t|] eqn:Ej.
  2:{ apply nth_error_None in Ej. assert (j < length r) by (apply nth_error_Some; congruence). lia. }
  apply (clause_var nv f c v t); auto. apply in_lits. exists j. unfold get2, get. rewrite Er, Et. auto.
Qed.

Lemma type_in_ok nv f c r x : consistent nv f -> c < y_nc f -> nth_error (y_conx f) c = Some r -> In x r ->
  exists t, type_in f c x = Some t.
Proof.
  intros W Hc Er Hx. unfold type_in, get. rewrite Er. cbn [bind].
  destruct (c_rows _ _ W _ _ Er) as (ts & Et & Lt). rewrite Et. cbn [bind].
  destruct (index_of_lt x r Hx) as (i & Ei & Li). rewrite Ei. cbn [bind].
  apply (get_lt ts). lia.
Qed.

Lemma of_interest_ok nv f s cv : consistent nv f -> exists l, of_interest f s cv = Some l /\
  Forall (fun i => i < y_nc f) l.
Proof.
  intros W. unfold of_interest.
  rewrite (mapM_Some _ (fun i => (i, outside_true s cv (lits f i)))).
  - cbn [bind]. eexists; split; [reflexivity|]. apply Forall_forall. intros i Hi.
    apply in_map_iff in Hi. destruct Hi as ((i' & k) & <- & Hi). apply filter_In in Hi. destruct Hi as [Hi _].
    apply in_map_iff in Hi. destruct Hi as (i2 & E & Hi). injection E as <- _.
    apply filter_In in Hi. destruct Hi as [Hi _]. apply in_seq in Hi. rewrite (c_conx _ _ W) in Hi. cbn. lia.
  - intros i Hi. apply filter_In in Hi. destruct Hi as [Hi _]. apply in_seq in Hi.
    rewrite (c_conx _ _ W) in Hi. rewrite (literals_ok nv) by (auto; lia). auto.
Qed.

Lemma overlaps_ok nv f c cv i : consistent nv f -> c < y_nc f -> nth_error (y_conx f) c = Some cv ->
  i < y_nc f ->
  exists p, overlaps f c cv i = Some p /\ Forall (fun v => v < nv) (fst (fst p)) /\
    incl (snd (fst p)) cv.
Proof.
  intros W Hc Ec Hi. unfold overlaps. destruct (row_at nv f i W Hi) as (r & Er & Fr).
  unfold get. rewrite Er. cbn [bind].
  match goal with |- context [mapM ?g ?l0] => destruct (mapM_all g l0) as (k & E & _ & I) end.
  - intros x Hx. apply filter_In in Hx. destruct Hx as [H1 H2]. apply mem_In in H2.
    destruct (type_in_ok nv f i r x W Hi Er H1) as [a ->]. cbn [bind].
    destruct (type_in_ok nv f c cv x W Hc Ec H2) as [b ->]. cbn [bind]. eauto.
  - rewrite E. cbn [bind]. eexists; split; [reflexivity|]. cbn [fst snd]. split; auto.
    intros x Hx. apply in_map_iff in Hx. destruct Hx as ((x' & b) & <- & Hx). apply filter_In in Hx.
    destruct Hx as [Hx _]. apply I in Hx. destruct Hx as (a & Ha & Hg).
    apply filter_In in Ha. destruct Ha as [_ Ha]. apply mem_In in Ha.
    destruct (type_in f i a); [|discriminate]. destruct (type_in f c a); [|discriminate].
    cbn in Hg. injection Hg as -> _. auto.
Qed.

(** [J] is any invariant of the flips *)
Lemma phase2_one_ok nv f ord o combos c (J : ks_obj * nat -> Prop) : consistent nv f -> c < y_nc f ->
  (forall l, Permutation l (ord l)) ->
  Forall (Forall (fun v => v < nv)) combos ->
  J (o, length (v_unsat (k_sum o))) ->
  (forall st var val, var < nv -> J st -> exists st' b, try_flip f st var val = Some (st', b) /\ J st') ->
  exists o' combos', phase2_one f ord (o, combos) c = Some (o', combos') /\
    Forall (Forall (fun v => v < nv)) combos' /\ exists old, J (o', old).
Proof.
  intros W Hc P Fc Hj St. unfold phase2_one.
  destruct (row_at nv f c W Hc) as (cv & Ec & Fcv). unfold get. rewrite Ec. cbn [bind].
  destruct (of_interest_ok nv f (k_sum o) cv W) as (ints & Ei & Fi). rewrite Ei. cbn [bind].
  destruct (mapM_all (overlaps f c cv) ints) as (parts & Ep & _ & Ip).
  { intros i Hi. destruct (overlaps_ok nv f c cv i) as (p & Hp & _); eauto.
    apply (proj1 (Forall_forall _ _) Fi); auto. }
  rewrite Ep. cbn [bind].
  assert (Fp : Forall (fun p => Forall (fun v => v < nv) (fst (fst p)) /\ incl (snd (fst p)) cv) parts).
  { apply Forall_forall. intros p Hp. apply Ip in Hp. destruct Hp as (i & Hi & Hp).
    destruct (overlaps_ok nv f c cv i) as (p' & Hp' & K); auto.
    - apply (proj1 (Forall_forall _ _) Fi); auto.
    - rewrite Hp' in Hp. injection Hp as <-. auto. }
  match goal with |- context [fold_break ?bd ?l0 ?st0] =>
    destruct (fold_break_ok bd J l0 st0) as ([o' old'] & E & C) end.
  - auto.
  - intros st x Hx Hst.
    apply (Permutation_in _ (Permutation_sym (P _))) in Hx. apply filter_In in Hx. destruct Hx as [Hx _].
    apply nodup_In in Hx. apply in_concat in Hx. destruct Hx as (l & Hl & Hx).
    apply in_map_iff in Hl. destruct Hl as (p & <- & Hp).
    destruct (proj1 (Forall_forall _ _) Fp p Hp) as [_ K]. apply K in Hx.
    destruct (type_in_ok nv f c cv x W Hc Ec Hx) as [t ->]. cbn [bind]. apply St; auto.
    apply (proj1 (Forall_forall _ _) Fcv); auto.
  - rewrite E. cbn [bind]. eexists _, _. split; [reflexivity|]. split; [|eauto].
    apply Forall_app. split; auto. constructor; auto. apply Forall_forall. intros r Hr.
    apply in_map_iff in Hr. destruct Hr as (p & <- & Hp). apply (proj1 (Forall_forall _ _) Fp p Hp).
Qed.

Lemma phase2_ok nv f ord o : consistent nv f -> (forall l, Permutation l (ord l)) ->
  flagged nv f o -> v_unsat (k_sum o) = unsat f (k_hd o) ->
  exists o' combos, phase2 f ord o = Some (o', combos) /\ flagged nv f o' /\
    get_summary f (k_hd o') = Some (k_sum o') /\ Forall (Forall (fun v => v < nv)) combos /\
    (length (unsat f (k_hd o)) <= 1 -> length (unsat f (k_hd o')) <= length (unsat f (k_hd o))).
Proof.
  intros W P Fl U. unfold phase2. rewrite U.
  assert (Fin : forall o', flagged nv f o' -> exists s, get_summary f (k_hd o') = Some s).
  { intros o' [L' _]. destruct (get_summary_ok nv f (k_hd o') W L') as (s & Es & _). eauto. }
  set (us := unsat f (k_hd o)) in *.
  assert (Us : Forall (fun c => c < y_nc f) us).
  { apply Forall_forall. intros c Hc. apply filter_In in Hc. destruct Hc as [Hc _]. apply in_seq in Hc. lia. }
  destruct (le_lt_dec (length us) 1) as [Le|Gt].
  - destruct us as [|c [|c2 l]] eqn:Eu; [| |cbn in Le; lia].
    + cbn [foldM bind]. destruct (Fin o Fl) as (s & Es). rewrite Es. cbn [bind].
      eexists _, _. split; [reflexivity|]. unfold flagged; cbn [k_hd k_flag k_sum].
      destruct Fl. split; [auto|split; [auto|split; [constructor|]]]. fold us. rewrite Eu. auto.
    + cbn [foldM]. apply Forall_inv in Us.
      destruct (phase2_one_ok nv f ord o [] c (counted nv f 1)) as (o' & cb & E & Fc & old & C); auto.
      * split; [auto|]. cbn [fst snd]. rewrite U. fold us. rewrite Eu. cbn. lia.
      * intros. apply (try_flip_counted nv); auto.
      * rewrite E. cbn [bind]. destruct C as (Fl' & O & B). cbn [fst snd] in *.
        destruct (Fin o' Fl') as (s & Es). rewrite Es. cbn [bind].
        eexists _, _. split; [reflexivity|]. unfold flagged; cbn [k_hd k_flag k_sum].
        destruct Fl'. split; [auto|split; [auto|split; [auto|]]]. intros _. cbn. lia.
  - destruct (foldM_ok (phase2_one f ord)
      (fun st => flagged nv f (fst st) /\ Forall (Forall (fun v => v < nv)) (snd st)) us (o, []))
      as ([o' cb] & E & Fl' & Fc).
    + split; [auto|constructor].
    + intros [o1 cb1] c Hc [H1 H2]. cbn [fst snd] in *.
      destruct (phase2_one_ok nv f ord o1 cb1 c (fun st => flagged nv f (fst st)))
        as (o2 & cb2 & E & Fc & old & C); auto.
      * apply (proj1 (Forall_forall _ _) Us); auto.
      * intros. apply (try_flip_flagged nv); auto.
      * exists (o2, cb2). auto.
    + rewrite E. cbn [bind fst snd] in *. destruct (Fin o' Fl') as (s & Es). rewrite Es. cbn [bind].
      eexists _, _. split; [reflexivity|]. unfold flagged; cbn [k_hd k_flag k_sum].
      destruct Fl'. split; [auto|split; [auto|split; [auto|]]]. lia.
Qed.

Lemma in_combinations l k vars : In vars (combinations l k) -> length vars = k /\ incl vars l.
Proof.
  revert k vars. induction l as [|x l IH]; intros [|k] vars H; cbn in H.
  - destruct H as [<- | []]. split; [auto|intros y []].
  - destruct H.
  - destruct H as [<- | []]. split; [auto|intros y []].
  - apply in_app_iff in H. destruct H as [H | H].
    + apply in_map_iff in H. destruct H as (v & <- & H). apply IH in H. destruct H as [L I].
      split; [cbn; lia|]. intros y [<- | Hy]; [left; auto|right; auto].
    + apply IH in H. destruct H as [L I]. split; [auto|]. intros y Hy. right; auto.
Qed.

Lemma assign_ok vars vals hd nv : length hd = nv -> Forall (fun v => v < nv) vars ->
  exists hd', assign hd vars vals = Some hd' /\ length hd' = nv.
Proof.
  intros L F. unfold assign. apply (foldM_ok _ (fun h => length h = nv)); auto.
  intros h [v b] H Lh. apply in_combine_l in H. cbn [fst snd]. apply (proj1 (Forall_forall _ _) F) in H.
  rewrite set_lt by lia. eexists; split; [reflexivity|]. rewrite upd_length; auto.
Qed.

Lemma try_assign_counted nv f N vars st vals : consistent nv f -> Forall (fun v => v < nv) vars ->
  counted nv f N st ->
  exists st' b, try_assign f vars st vals = Some (st', b) /\ counted nv f N st'.
Proof.
  intros W Hv H. destruct st as [o old]. unfold counted in *. cbn [fst snd] in *. unfold try_assign.
  destruct H as ([L Fl] & O & B).
  destruct (assign_ok vars vals (k_hd o) nv L Hv) as (hd' & Ea & La). rewrite Ea. cbn [bind].
  destruct (get_summary_ok nv f hd' W La) as (s & Es & _ & _ & _ & Us).
  rewrite Es. cbn [bind]. destruct (length (v_unsat s) <? old) eqn:C.
  - eexists _, _. split; [reflexivity|]. unfold flagged. cbn [fst snd k_hd k_flag].
    apply Nat.ltb_lt in C. split; [split; [auto|apply flag_of_unsat; auto]|].
    split; [rewrite Us; auto|lia].
  - eexists _, _. split; [reflexivity|]. split; [split; auto|auto].
Qed.

Lemma phase3_ok nv f ord pp combos o : consistent nv f -> (forall l, Permutation l (ord l)) ->
  flagged nv f o -> v_unsat (k_sum o) = unsat f (k_hd o) ->
  Forall (Forall (fun v => v < nv)) combos ->
  exists o', phase3 f ord pp combos o = Some o' /\ flagged nv f o' /\
    get_summary f (k_hd o') = Some (k_sum o') /\
    length (unsat f (k_hd o')) <= length (unsat f (k_hd o)).
Proof.
  intros W P Fl U Fc. unfold phase3.
  set (N := length (unsat f (k_hd o))).
  match goal with |- context [bind ?e _] => assert (E : exists o1, e = Some o1 /\ flagged nv f o1 /\
    length (unsat f (k_hd o1)) <= N) end.
  { destruct (nonempty (v_unsat (k_sum o))) eqn:NE; [|exists o; auto].
    match goal with |- context [foldM ?bd ?l0 ?st0] =>
      destruct (foldM_ok bd (counted nv f N) l0 st0) as ([o1 old1] & E & C) end.
    - split; [auto|]. cbn [fst snd]. rewrite U. auto.
    - intros st k _ Hst. apply fold_break_ok; auto.
      intros st' vars Hvars Hst'. unfold try_combination.
      apply in_combinations in Hvars. destruct Hvars as [_ Hvars].
      destruct (fold_break_ok (try_assign f vars) (counted nv f N) (products k) st')
        as ([o2 old2] & E2 & C2); auto.
      + intros. apply (try_assign_counted nv); auto. apply Forall_forall. intros v Hv.
        apply Hvars in Hv. apply (Permutation_in _ (Permutation_sym (P _))) in Hv.
        apply nodup_In, in_concat in Hv. destruct Hv as (l & Hl & Hv).
        apply (proj1 (Forall_forall _ _) Fc) in Hl. apply (proj1 (Forall_forall _ _) Hl). auto.
      + rewrite E2. cbn [bind]. eauto.
    - rewrite E. cbn [bind]. destruct C as (C1 & C2 & C3). cbn [fst snd] in *.
      exists o1. split; [auto|split; [auto|lia]]. }
  destruct E as (o1 & E & Fl1 & B). rewrite E. cbn [bind].
  destruct Fl1 as [L1 F1]. destruct (get_summary_ok nv f (k_hd o1) W L1) as (s & Es & _). rewrite Es. cbn [bind].
  eexists; split; [reflexivity|]. unfold flagged; cbn [k_hd k_flag k_sum]. auto.
Qed.

Lemma post_processing_ok nv f ord2 ord3 pp o : consistent nv f ->
  (forall l, Permutation l (ord2 l)) -> (forall l, Permutation l (ord3 l)) ->
  flagged nv f o -> v_unsat (k_sum o) = unsat f (k_hd o) ->
  exists o', post_processing f ord2 ord3 pp o = Some o' /\ flagged nv f o' /\
    get_summary f (k_hd o') = Some (k_sum o') /\
    (length (unsat f (k_hd o)) <= 1 -> length (unsat f (k_hd o')) <= length (unsat f (k_hd o))).
Proof.
  intros W P2 P3 Fl U. unfold post_processing.
  destruct (phase1_ok nv f o _ W Fl U (le_n _)) as (o1 & E1 & Fl1 & S1 & B1). rewrite E1. cbn [bind].
  pose proof (summary_unsat nv f _ _ W (proj1 Fl1) S1) as U1.
  destruct (phase2_ok nv f ord2 o1 W P2 Fl1 U1) as (o2 & cb & E2 & Fl2 & S2 & Fc & B2). rewrite E2. cbn [bind].
  pose proof (summary_unsat nv f _ _ W (proj1 Fl2) S2) as U2.
  destruct (phase3_ok nv f ord3 pp cb o2 W P3 Fl2 U2 Fc) as (o3 & E3 & Fl3 & S3 & B3).
  exists o3. split; [auto|split; [auto|split; [auto|]]]. intros H. specialize (B2 ltac:(lia)). lia.
Qed.
