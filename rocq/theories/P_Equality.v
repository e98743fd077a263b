(** * Proofs about the equality-constraint updates. *)
From Verif Require Import Num NumFacts Arr ArrFacts MinSumFacts M_Equality
  P_Tsp_Constraints P_Kc_Trellis P_Ksat.
Local Open Scope nat_scope.

(** ** Finite vectors and matrices *)
Definition qplus (a b : list Qc) : list Qc := zip_with Qcplus a b.
Lemma zip_with_Fin a b : zip_with nadd (map Fin a) (map Fin b) = map Fin (qplus a b).
Proof.
  unfold qplus, zip_with. revert b; induction a as [|x a IH]; intros [|y b]; cbn; auto.
  f_equal; auto.
Qed.
Lemma plus_into_ok a b out : length a = length b -> length a = length out ->
  plus_into (map Fin a) (map Fin b) out = Some (map Fin (qplus a b)).
Proof.
  intros H1 H2. unfold plus_into. rewrite transform2_same by (rewrite !map_length; auto).
  f_equal. apply zip_with_Fin.
Qed.
Lemma qplus_length a b : length (qplus a b) = Nat.min (length a) (length b).
Proof. apply zip_with_length. Qed.
Lemma nth_qplus a b i : length a = length b ->
  nth i (qplus a b) 0%Qc = (nth i a 0 + nth i b 0)%Qc.
Proof.
  unfold qplus, zip_with. revert b i; induction a as [|x a IH]; intros [|y b] i H; cbn in *; try lia.
  - destruct i; qlra.
  - destruct i; auto.
Qed.

Lemma fin_vec n v : length v = n -> (forall i, i < n -> exists q, get v i = Some (Fin q)) ->
  exists Q, length Q = n /\ v = map Fin Q.
Proof.
  revert n; induction v as [|x v IH]; intros n Hl H; cbn in Hl.
  - exists []; auto.
  - destruct n as [|n]; [lia|]. destruct (H 0) as [q Hq]; [lia|]. cbn in Hq. injection Hq as ->.
    destruct (IH n) as (Q & LQ & ->); [lia| |].
    + intros i Hi. apply (H (S i)); lia.
    + exists (q :: Q). cbn. auto.
Qed.
Lemma fin_mat n k m : shape n k m ->
  (forall i j, i < n -> j < k -> exists q, get2 m i j = Some (Fin q)) ->
  exists Q, shape n k Q /\ m = inj Q.
Proof.
  revert n; induction m as [|r m IH]; intros n [Hl HF] H; cbn in Hl.
  - exists []. split; [split; auto|auto].
  - destruct n as [|n]; [lia|]. inversion HF as [|? ? Hr HF']; subst.
    destruct (fin_vec (length r) r) as (q & Lq & Er); auto.
    { intros j Hj. apply (H 0 j); lia. }
    destruct (IH n) as (Q & SQ & ->).
    + split; auto.
    + intros i j Hi Hj. apply (H (S i) j); lia.
    + exists (q :: Q). split; [|rewrite Er; reflexivity]. destruct SQ as [SL SF]. split; [cbn; lia|].
      constructor; auto.
Qed.
Lemma shape_nth n k (M : list (list Qc)) i : shape n k M -> i < n -> length (nth i M []) = k.
Proof.
  intros [L F] Hi. rewrite Forall_forall in F. apply F, nth_In; lia.
Qed.
Lemma get_inj n k M i : shape n k M -> i < n -> get (inj M) i = Some (map Fin (nth i M [])).
Proof.
  intros [L F] Hi. unfold inj. rewrite get_map, (get_nth M i []) by lia. reflexivity.
Qed.
Lemma get2_set_row (m : list (list num)) i r i' j : i < length m ->
  get2 (upd m i r) i' j = if i =? i' then get r j else get2 m i' j.
Proof. apply get2_upd. Qed.
Lemma get_mapFin q i n : length q = n -> i < n -> get (map Fin q) i = Some (Fin (nth i q 0%Qc)).
Proof. intros H1 H2. rewrite get_map, (get_nth q i 0%Qc) by lia. reflexivity. Qed.

(** ** KC-MWM *)
Lemma team_to_oric_ok D T X tq out : shape D T X -> length tq = T -> length out = T ->
  exists q, team_to_oric_update T (inj X) out (map Fin tq) = Some (map Fin q) /\ length q = T /\
    forall t, t < T -> nth t q 0%Qc = (nth t tq 0 + qsum (map (fun d => qat X d t) (seq 0 D)))%Qc.
Proof.
  intros HX Ht HO. unfold team_to_oric_update.
  replace (length (inj X)) with D by (unfold inj; rewrite map_length; destruct HX; auto).
  match goal with |- context [for_up 0 D ?st0 ?bd] =>
    destruct (for_up_ind 0 D st0 bd (fun i v => exists q, v = map Fin q /\ length q = T /\
      forall t, t < T -> nth t q 0%Qc = qsum (map (fun d => qat X d t) (seq 0 i))))
      as (v & E & q & -> & Lq & Hq) end.
  - lia.
  - exists (repeat 0%Qc T). split; [|split].
    + clear. induction T; cbn; [auto|]. f_equal; auto.
    + apply repeat_length.
    + intros t Hlt. cbn. apply nth_repeat.
  - intros d v Hd (q & -> & Lq & Hq). rewrite (get_inj D T) by (auto; lia). cbn [bind].
    pose proof (shape_nth D T X d HX) as LX.
    rewrite plus_into_ok by (rewrite ?map_length; rewrite LX by lia; lia).
    eexists; split; [reflexivity|]. eexists; split; [reflexivity|].
    rewrite qplus_length, LX, Lq by lia. split; [lia|]. intros t Hlt.
    rewrite nth_qplus by (rewrite LX; lia). rewrite Hq by auto.
    replace (d + 1) with (S d) by lia. rewrite seq_S, map_app, qsum_app. cbn [map Nat.add].
    rewrite qsum_cons. change (qsum []) with 0%Qc. unfold qat. qlra.
  - rewrite E; cbn [bind]. rewrite plus_into_ok by (rewrite ?map_length; congruence).
    eexists; split; [reflexivity|]. rewrite qplus_length. split; [lia|].
    intros t Hlt. rewrite nth_qplus by congruence. rewrite Hq by auto. qlra.
Qed.

Lemma rowwise_plus n k A B out :
  shape n k A -> shape n k B -> shape n k out ->
  exists Q, for_up 0 n out (fun out e =>
      f <- get (inj A) e ;; c <- get (inj B) e ;; o <- get out e ;;
      o' <- plus_into f c o ;; set out e o') = Some (inj Q) /\ shape n k Q /\
    forall i j, i < n -> j < k -> qat Q i j = (qat A i j + qat B i j)%Qc.
Proof.
  intros HA HB HO.
  match goal with |- context [for_up 0 n ?st0 ?bd] =>
    destruct (for_up_ind 0 n st0 bd (fun i o => shape n k o /\
      forall e j, e < i -> j < k -> get2 o e j = Some (Fin (qat A e j + qat B e j)%Qc)))
      as (o & E & S & H) end.
  - lia.
  - split; auto. intros; lia.
  - intros e o He [S H]. rewrite (get_inj n k A) by (auto; lia). rewrite (get_inj n k B) by (auto; lia).
    cbn [bind]. destruct (get_lt o e) as [r Hr]; [destruct S; lia|]. rewrite Hr; cbn [bind].
    pose proof (shape_nth n k A e HA) as LA. pose proof (shape_nth n k B e HB) as LB.
    pose proof (shape_row _ _ _ _ _ S Hr) as Lr.
    rewrite plus_into_ok by (rewrite ?LA, ?LB; lia). cbn [bind].
    rewrite set_lt by (destruct S; lia). eexists; split; [reflexivity|]. split.
    + apply shape_upd; auto. rewrite map_length, qplus_length, LA, LB; lia.
    + intros e' j He' Hj. rewrite get2_upd by (destruct S; lia).
      destruct (Nat.eqb_spec e e') as [<-|Hn]; [|apply H; lia].
      rewrite (get_mapFin _ _ k) by (rewrite ?qplus_length, ?LA, ?LB; lia).
      rewrite nth_qplus by (rewrite LA, LB; lia). reflexivity.
  - destruct (fin_mat n k o S) as (Q & SQ & ->).
    { intros i j Hi Hj. eexists; apply H; auto. }
    exists Q. split; [exact E|]. split; auto. intros i j Hi Hj.
    specialize (H i j Hi Hj). rewrite (get2_inj n k) in H by auto. congruence.
Qed.

Lemma project_to_oric_ok P T A R out : shape P T A -> shape P T R -> shape P T out ->
  exists Q, project_to_oric_update (inj A) out (inj R) = Some (inj Q) /\ shape P T Q /\
    forall p t, p < P -> t < T -> qat Q p t = (qat A p t + qat R p t)%Qc.
Proof.
  intros HA HR HO. unfold project_to_oric_update.
  replace (length (inj A)) with P by (unfold inj; rewrite map_length; destruct HA; auto).
  apply rowwise_plus; auto.
Qed.

(** ** TSP *)
Lemma edges_in_get k E e u v : edges_in k E -> get E e = Some (u, v) -> u < k /\ v < k.
Proof.
  unfold edges_in. rewrite Forall_forall. intros H He. apply (H (u, v)). eapply nth_error_In; eauto.
Qed.
Lemma no_self_get E e u v : no_self_loop E -> get E e = Some (u, v) -> u <> v.
Proof.
  unfold no_self_loop. rewrite Forall_forall. intros H He. apply (H (u, v)). eapply nth_error_In; eauto.
Qed.

(** value seen by node [w] through the other endpoint of edge (u,v) *)
Definition swap (u v w : nat) : nat := if w =? u then v else if w =? v then u else w.

Lemma flip_ok n k M E : length E = n -> shape n k M -> edges_in k E -> no_self_loop E ->
  exists Q, flip_matrix (inj M) E (inj M) = Some (inj Q) /\ shape n k Q /\
    forall e u v w, get E e = Some (u, v) -> w < k -> qat Q e w = qat M e (swap u v w).
Proof.
  intros HE HM Hin Hns. unfold flip_matrix. rewrite HE.
  match goal with |- context [for_up 0 n ?st0 ?bd] =>
    destruct (for_up_ind 0 n st0 bd (fun i o => shape n k o /\
      (forall e u v w, e < i -> get E e = Some (u, v) -> w < k ->
         get2 o e w = Some (Fin (qat M e (swap u v w)))) /\
      (forall e w, i <= e < n -> w < k -> get2 o e w = Some (Fin (qat M e w)))))
      as (o & Eo & S & H & _) end.
  - lia.
  - split; [apply shape_inj; auto|]. split; [intros; lia|]. intros. apply (get2_inj n k); auto; lia.
  - intros e o He (S & H1 & H2). destruct (get_lt E e) as [[u v] Huv]; [lia|]. rewrite Huv; cbn [bind].
    destruct (edges_in_get _ _ _ _ _ Hin Huv) as [Lu Lv].
    pose proof (no_self_get _ _ _ _ Hns Huv) as Nuv.
    rewrite !(get2_inj n k) by (auto; lia). cbn [bind].
    rewrite (set2_lt n k) by (auto; lia). cbn [bind].
    pose proof (shape_upd2 n k o e u (Fin (qat M e v)) S) as S1.
    rewrite (set2_lt n k) by (auto; lia). eexists; split; [reflexivity|].
    split; [apply shape_upd2; auto|]. split.
    + intros e' u' v' w He' Huv' Hw. rewrite !(get2_upd2 n k) by (auto; lia).
      destruct (Nat.eqb_spec e e') as [<-|Hn]; cbn [andb]; [|apply H1; auto; lia].
      assert (u' = u) by congruence. assert (v' = v) by congruence. subst. unfold swap.
      destruct (Nat.eqb_spec v w) as [<-|Hvw].
      * destruct (Nat.eqb_spec v u); [congruence|]. rewrite Nat.eqb_refl. auto.
      * destruct (Nat.eqb_spec u w) as [<-|Huw].
        -- rewrite Nat.eqb_refl. auto.
        -- destruct (Nat.eqb_spec w u); [congruence|]. destruct (Nat.eqb_spec w v); [congruence|].
           apply H2; auto; lia.
    + intros e' w He' Hw. rewrite !(get2_upd2 n k) by (auto; lia).
      destruct (Nat.eqb_spec e e') as [<-|Hn]; cbn [andb]; [lia|]. apply H2; auto; lia.
  - destruct (fin_mat n k o S) as (Q & SQ & ->).
    { intros i j Hi Hj. destruct (get_lt E i) as [[u v] Huv]; [lia|]. eexists; eapply H; eauto. }
    exists Q. split; [exact Eo|]. split; auto. intros e u v w Huv Hw.
    assert (e < n) by (rewrite <- HE; eapply get_Some_lt; eauto).
    pose proof (H e u v w) as G. rewrite (get2_inj n k) in G by auto.
    specialize (G ltac:(auto) Huv Hw). congruence.
Qed.

Lemma edge_to_degree_relaxed_ok n k M C E out :
  length E = n -> shape n k M -> shape n k C -> shape n k out -> edges_in k E -> no_self_loop E ->
  exists Q, edge_to_degree_relaxed n E (inj C) (inj M) out = Some (inj Q) /\ shape n k Q /\
    forall e u v w, get E e = Some (u, v) -> w < k ->
      qat Q e w = (qat M e (swap u v w) + qat C e w)%Qc.
Proof.
  intros HE HM HC HO Hin Hns. unfold edge_to_degree_relaxed.
  destruct (flip_ok n k M E HE HM Hin Hns) as (F & EF & SF & HF). rewrite EF; cbn [bind].
  destruct (rowwise_plus n k F C out SF HC HO) as (Q & EQ & SQ & HQ).
  exists Q. split; [exact EQ|]. split; auto. intros e u v w Huv Hw.
  assert (e < n) by (rewrite <- HE; eapply get_Some_lt; eauto).
  rewrite HQ by auto. rewrite (HF e u v w) by auto. reflexivity.
Qed.

Lemma sum_rows_ok n S rows : shape S n rows ->
  exists q, sum_rows n (inj rows) = Some (map Fin q) /\ length q = n /\
    forall e, e < n -> nth e q 0%Qc = qsum (map (fun s => qat rows s e) (seq 0 S)).
Proof.
  intros HS. unfold sum_rows.
  destruct (foldM_ind (fun acc row => plus_into acc row acc)
    (fun done acc => exists q, acc = map Fin q /\ length q = n /\
       forall e, e < n -> nth e q 0%Qc = qsum (map (fun s => qat rows s e) (seq 0 (length done))))
    (inj rows) (repeat n0 n)) as (acc & E & q & -> & Lq & Hq).
  - exists (repeat 0%Qc n). split; [|split].
    + clear. induction n; cbn; [auto|]. f_equal; auto.
    + apply repeat_length.
    + intros e He. cbn. apply nth_repeat.
  - intros done a rest acc Heq (q & -> & Lq & Hq).
    assert (Hd : length done < S).
    { destruct HS as [L _]. rewrite <- L. unfold inj in Heq.
      apply (f_equal (@length _)) in Heq. rewrite map_length, app_length in Heq. cbn in Heq. lia. }
    assert (Ha : a = map Fin (nth (length done) rows [])).
    { pose proof (get_inj S n rows (length done) HS Hd) as G. rewrite Heq in G.
      rewrite get_app2, Nat.sub_diag in G by lia. cbn in G. congruence. }
    subst a. pose proof (shape_nth S n rows _ HS Hd) as LR.
    rewrite plus_into_ok by (rewrite ?map_length; lia). eexists; split; [reflexivity|].
    eexists; split; [reflexivity|]. rewrite qplus_length. split; [lia|]. intros e He.
    rewrite nth_qplus by lia. rewrite Hq by auto. rewrite app_length. cbn [length].
    replace (length done + 1) with (Datatypes.S (length done)) by lia.
    rewrite seq_S, map_app, qsum_app. cbn [map Nat.add].
    rewrite qsum_cons. change (qsum []) with 0%Qc. unfold qat. qlra.
  - exists q. split; [exact E|]. split; auto. intros e He. rewrite Hq by auto.
    unfold inj. rewrite map_length. destruct HS as [-> _]. reflexivity.
Qed.

Lemma combined_degree_ok n k M E : length E = n -> shape n k M -> edges_in k E ->
  exists q, combined_degree n E (inj M) = Some (map Fin q) /\ length q = n /\
    forall e u v, get E e = Some (u, v) -> nth e q 0%Qc = (qat M e u + qat M e v)%Qc.
Proof.
  intros HE HM Hin. unfold combined_degree.
  match goal with |- context [for_up 0 n ?st0 ?bd] =>
    destruct (for_up_ind 0 n st0 bd (fun i c => length c = n /\
      forall e u v, e < i -> get E e = Some (u, v) ->
        get c e = Some (Fin (qat M e u + qat M e v)%Qc))) as (c & Ec & L & H) end.
  - lia.
  - rewrite repeat_length; split; auto. intros; lia.
  - intros e c He (L & H). destruct (get_lt E e) as [[u v] Huv]; [lia|]. rewrite Huv; cbn [bind].
    destruct (edges_in_get _ _ _ _ _ Hin Huv) as [Lu Lv].
    rewrite !(get2_inj n k) by (auto; lia). cbn [bind nadd]. rewrite set_lt by lia.
    eexists; split; [reflexivity|]. rewrite upd_length. split; auto.
    intros e' u' v' He' Huv'. rewrite get_upd by lia.
    destruct (Nat.eqb_spec e e') as [<-|Hn]; [|apply H; auto; lia]. congruence.
  - destruct (fin_vec n c L) as (q & Lq & ->).
    { intros i Hi. destruct (get_lt E i) as [[u v] Huv]; [lia|]. eexists; eapply H; eauto. }
    exists q. split; [exact Ec|]. split; auto. intros e u v Huv.
    assert (e < n) by (rewrite <- HE; eapply get_Some_lt; eauto).
    specialize (H e u v ltac:(auto) Huv). rewrite (get_mapFin _ _ n) in H by auto. congruence.
Qed.

Lemma edge_to_degree_augmented_ok n k S M Sub C E out :
  length E = n -> shape n k M -> shape S n Sub -> shape n k C -> shape n k out ->
  edges_in k E -> no_self_loop E ->
  exists out', edge_to_degree_augmented n (inj M) (inj Sub) E (inj C) out = Some out' /\ shape n k out' /\
    (forall e u v, get E e = Some (u, v) ->
       get2 out' e u = Some (Fin (qat M e v + qat C e u + qsum (map (fun s => qat Sub s e) (seq 0 S)))%Qc) /\
       get2 out' e v = Some (Fin (qat M e u + qat C e v + qsum (map (fun s => qat Sub s e) (seq 0 S)))%Qc)) /\
    (forall e u v w, get E e = Some (u, v) -> w <> u -> w <> v -> get2 out' e w = get2 out e w).
Proof.
  intros HE HM HS HC HO Hin Hns. unfold edge_to_degree_augmented.
  destruct (sum_rows_ok n S Sub HS) as (sq & Es & Ls & Hs). rewrite Es; cbn [bind]. rewrite HE.
  match goal with |- context [for_up 0 n ?st0 ?bd] =>
    destruct (for_up_ind 0 n st0 bd (fun i o => shape n k o /\
      (forall e u v, e < i -> get E e = Some (u, v) ->
       get2 o e u = Some (Fin (qat M e v + qat C e u + qsum (map (fun s => qat Sub s e) (seq 0 S)))%Qc) /\
       get2 o e v = Some (Fin (qat M e u + qat C e v + qsum (map (fun s => qat Sub s e) (seq 0 S)))%Qc)) /\
      (forall e u v w, e < i -> get E e = Some (u, v) -> w <> u -> w <> v -> get2 o e w = get2 out e w) /\
      (forall e w, i <= e -> get2 o e w = get2 out e w))) as (o & Eo & SS & H1 & H2 & _) end.
  - lia.
  - split; auto. split; [intros; lia|]. split; [intros; lia|]. auto.
  - intros e o He (SS & H1 & H2 & H3). destruct (get_lt E e) as [[u v] Huv]; [lia|]. rewrite Huv; cbn [bind].
    destruct (edges_in_get _ _ _ _ _ Hin Huv) as [Lu Lv].
    pose proof (no_self_get _ _ _ _ Hns Huv) as Nuv.
    rewrite (get_mapFin _ _ n) by (auto; lia). rewrite !(get2_inj n k) by (auto; lia). cbn [bind].
    rewrite (set2_lt n k) by (auto; lia). cbn [bind].
    rewrite Hs by lia. cbn [nadd].
    set (sv := qsum (map (fun s => qat Sub s e) (seq 0 S))).
    match goal with |- context [upd2 o e u ?x] => pose proof (shape_upd2 n k o e u x SS) as S1 end.
    rewrite (set2_lt n k) by (auto; lia). eexists; split; [reflexivity|].
    split; [apply shape_upd2; auto|].
    split; [|split].
    + intros e' u' v' He' Huv'. rewrite !(get2_upd2 n k) by (auto; lia).
      destruct (Nat.eqb_spec e e') as [<-|Hn]; cbn [andb]; [|apply H1; auto; lia].
      assert (u' = u) by congruence. assert (v' = v) by congruence. subst.
      rewrite !Nat.eqb_refl. destruct (Nat.eqb_spec v u); [congruence|].
      split; do 2 f_equal; unfold sv; qlra.
    + intros e' u' v' w He' Huv' Hu Hv. rewrite !(get2_upd2 n k) by (auto; lia).
      destruct (Nat.eqb_spec e e') as [<-|Hn]; cbn [andb]; [|eapply H2; eauto; lia].
      assert (u' = u) by congruence. assert (v' = v) by congruence. subst.
      destruct (Nat.eqb_spec v w); [congruence|]. destruct (Nat.eqb_spec u w); [congruence|].
      apply H3; lia.
    + intros e' w He'. rewrite !(get2_upd2 n k) by (auto; lia).
      destruct (Nat.eqb_spec e e') as [<-|Hn]; cbn [andb]; [lia|]. apply H3; lia.
  - exists o. split; [exact Eo|]. split; auto. split.
    + intros e u v Huv. apply H1; auto. rewrite <- HE. eapply get_Some_lt; eauto.
    + intros e u v w Huv. eapply H2; eauto. rewrite <- HE. eapply get_Some_lt; eauto.
Qed.

(** scattering values on the indices of [d] *)
Lemma scatter_ok n d (f : nat -> Qc) body :
  Forall (fun e => e < n) d ->
  (forall row i e, length row = n -> get d i = Some e -> body row i = set row e (Fin (f e))) ->
  exists q, for_up 0 (length d) (repeat n0 n) body = Some (map Fin q) /\ length q = n /\
    (forall e, In e d -> nth e q 0%Qc = f e) /\ (forall e, e < n -> ~ In e d -> nth e q 0%Qc = 0%Qc).
Proof.
  intros Hd Hb. rewrite Forall_forall in Hd.
  destruct (for_up_ind 0 (length d) (repeat n0 n) body (fun i r => length r = n /\
      (forall e, In e (firstn i d) -> get r e = Some (Fin (f e))) /\
      (forall e, e < n -> ~ In e (firstn i d) -> get r e = Some n0))) as (r & E & L & H1 & H2).
  - lia.
  - rewrite repeat_length; split; auto. split; [intros e []|]. intros; apply get_repeat; auto.
  - intros i r Hi (L & H1 & H2). destruct (get_lt d i) as [e He]; [lia|].
    assert (e < n) by (apply Hd; eapply nth_error_In; eauto).
    rewrite (Hb r i e L He), set_lt by lia. eexists; split; [reflexivity|]. rewrite upd_length. split; auto.
    rewrite (firstn_succ _ _ _ He). split.
    + intros e' H'. rewrite get_upd by lia. destruct (Nat.eqb_spec e e') as [<-|Hn]; auto.
      apply H1. apply in_app_or in H' as [H'|[H'|[]]]; auto; congruence.
    + intros e' H' Hn'. rewrite get_upd by lia. destruct (Nat.eqb_spec e e') as [<-|Hn].
      * exfalso; apply Hn', in_or_app; right; left; auto.
      * apply H2; auto. intros X; apply Hn', in_or_app; auto.
  - rewrite firstn_all2 in H1, H2 by lia.
    assert (HF : exists q, length q = n /\ r = map Fin q).
    { apply fin_vec; auto. intros e He. destruct (in_dec Nat.eq_dec e d) as [Hi|Hn]; [eauto|].
      exists 0%Qc. apply H2; auto. }
    destruct HF as (q & Lq & ->). exists q. split; [exact E|]. split; auto. split.
    + intros e He. specialize (H1 e He). rewrite (get_mapFin _ _ n) in H1 by auto. congruence.
    + intros e He Hn. specialize (H2 e He Hn). rewrite (get_mapFin _ _ n) in H2 by auto. unfold n0 in H2. congruence.
Qed.

Lemma edge_to_subtour_ok n k S M Sub cost E deltas :
  length E = n -> shape n k M -> length deltas = S -> shape S n Sub -> length cost = n ->
  edges_in k E -> Forall (Forall (fun e => e < n)) deltas ->
  exists Q, edge_to_subtour n deltas (map Fin cost) (inj M) (inj Sub) E = Some (inj Q) /\ shape S n Q /\
    (forall s d e u v, get deltas s = Some d -> In e d -> get E e = Some (u, v) ->
       qat Q s e = (nth e cost 0 + qat M e u + qat M e v
                    + qsum (map (fun s' => qat Sub s' e) (others s (seq 0 S))))%Qc) /\
    (forall s d e, get deltas s = Some d -> e < n -> ~ In e d -> qat Q s e = 0%Qc).
Proof.
  intros HE HM HD HS HC Hin Hd. unfold edge_to_subtour.
  destruct (combined_degree_ok n k M E HE HM Hin) as (cd & Ecd & Lcd & Hcd).
  rewrite HD. destruct (Nat.eqb_spec S 1) as [E1|E1].
  - rewrite Ecd; cbn [bind]. destruct (get_lt deltas 0) as [d Hd0]; [lia|]. rewrite Hd0; cbn [bind].
    assert (Fd : Forall (fun e => e < n) d).
    { rewrite Forall_forall in Hd. apply Hd. eapply nth_error_In; eauto. }
    destruct (scatter_ok n d (fun e => (nth e cd 0 + nth e cost 0)%Qc)
      (fun row i => e <- get d i ;; a <- get (map Fin cd) e ;; c <- get (map Fin cost) e ;; set row e (nadd a c)))
      as (q & Eq & Lq & Q1 & Q2); auto.
    { intros row i e Lr He. rewrite He; cbn [bind].
      assert (e < n) by (rewrite Forall_forall in Fd; apply Fd; eapply nth_error_In; eauto).
      rewrite !(get_mapFin _ _ n) by auto. reflexivity. }
    rewrite Eq; cbn [bind]. exists [q]. split; [reflexivity|]. split; [|split].
    + split; [cbn; lia|]. constructor; auto.
    + intros s d' e u v Hs He Huv. assert (s = 0).
      { pose proof (get_Some_lt _ _ _ Hs). lia. } subst s. assert (d' = d) by congruence. subst d'.
      unfold qat at 1. cbn [nth]. rewrite Q1 by auto. rewrite (Hcd e u v Huv). rewrite E1.
      cbn [seq others filter Nat.eqb negb map]. change (qsum []) with 0%Qc. qlra.
    + intros s d' e Hs He Hn. assert (s = 0).
      { pose proof (get_Some_lt _ _ _ Hs). lia. } subst s. assert (d' = d) by congruence. subst d'.
      unfold qat. cbn [nth]. auto.
  - destruct (sum_rows_ok n S Sub HS) as (sq & Es & Ls & Hs). rewrite Es; cbn [bind].
    rewrite Ecd; cbn [bind].
    match goal with |- context [for_up 0 S ?st0 ?bd] =>
      destruct (for_up_ind 0 S st0 bd (fun i acc => exists Q, acc = inj Q /\ shape i n Q /\
        (forall s d e u v, s < i -> get deltas s = Some d -> In e d -> get E e = Some (u, v) ->
           qat Q s e = (nth e cost 0 + qat M e u + qat M e v
                        + qsum (map (fun s' => qat Sub s' e) (others s (seq 0 S))))%Qc) /\
        (forall s d e, s < i -> get deltas s = Some d -> e < n -> ~ In e d -> qat Q s e = 0%Qc)))
        as (acc & Ea & Q & -> & SQ & H1 & H2) end.
    + lia.
    + exists []. split; auto. split; [split; auto|]. split; intros; lia.
    + intros s acc Hsl (Q & -> & SQ & H1 & H2).
      destruct (get_lt deltas s) as [d Hds]; [lia|]. rewrite Hds; cbn [bind].
      assert (Fd : Forall (fun e => e < n) d).
      { rewrite Forall_forall in Hd. apply Hd. eapply nth_error_In; eauto. }
      destruct (scatter_ok n d (fun e => (nth e sq 0 + nth e cd 0 + nth e cost 0 - qat Sub s e)%Qc)
        (fun row i => e <- get d i ;; x <- get (map Fin sq) e ;; a <- get (map Fin cd) e ;;
                      c <- get (map Fin cost) e ;; m <- get2 (inj Sub) s e ;;
                      set row e (nsub (nadd (nadd x a) c) m)))
        as (q & Eq & Lq & Q1 & Q2); auto.
      { intros row i e Lr He. rewrite He; cbn [bind].
        assert (e < n) by (rewrite Forall_forall in Fd; apply Fd; eapply nth_error_In; eauto).
        rewrite !(get_mapFin _ _ n) by auto. cbn [bind].
        rewrite (get2_inj S n) by (auto; lia). reflexivity. }
      rewrite Eq; cbn [bind]. eexists; split; [reflexivity|]. exists (Q ++ [q]).
      split; [unfold inj; rewrite map_app; reflexivity|].
      destruct SQ as [LQ FQ].
      split; [split; [rewrite app_length; cbn; lia|apply Forall_app; auto]|].
      assert (QA : forall s' e, s' < s -> qat (Q ++ [q]) s' e = qat Q s' e).
      { intros s' e Hs'. unfold qat. rewrite app_nth1 by lia. auto. }
      assert (QB : forall e, qat (Q ++ [q]) s e = nth e q 0%Qc).
      { intros e. unfold qat. rewrite app_nth2 by lia. replace (s - length Q) with 0 by lia. auto. }
      split.
      * intros s' d' e u v Hs' Hd' He Huv. destruct (Nat.eq_dec s' s) as [->|Hn].
        -- assert (d' = d) by congruence. subst d'. rewrite QB, Q1 by auto.
           rewrite (Hcd e u v Huv).
           assert (e < n) by (rewrite Forall_forall in Fd; auto).
           rewrite Hs by auto.
           rewrite (qsum_remove (map (fun s => qat Sub s e) (seq 0 S)) s (qat Sub s e)).
           2:{ rewrite get_map, get_seq by lia. reflexivity. }
           rewrite remove_at_map, (remove_others (seq 0 S) s s); [|apply seq_NoDup|].
           2:{ rewrite get_seq by lia. reflexivity. }
           qlra.
        -- rewrite QA by lia. eapply H1; eauto; lia.
      * intros s' d' e Hs' Hd' He Hni. destruct (Nat.eq_dec s' s) as [->|Hn].
        -- assert (d' = d) by congruence. subst d'. rewrite QB. auto.
        -- rewrite QA by lia. eapply H2; eauto; lia.
    + exists Q. split; [exact Ea|]. split; auto. split.
      * intros s d e u v Hds. apply H1; auto. pose proof (get_Some_lt _ _ _ Hds). lia.
      * intros s d e Hds. eapply H2; eauto. pose proof (get_Some_lt _ _ _ Hds). lia.
Qed.
