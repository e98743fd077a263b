(** * Proofs about the team to department messages. *)
From Verif Require Import Num NumFacts Arr ArrFacts MinSumFacts M_Knapsack
  P_Tsp_Constraints P_Kc_Trellis P_Ksat P_Equality P_Knapsack.
Local Open Scope nat_scope.

Lemma merge_inter_spec fuel a b : incr a -> incr b -> length a + length b <= fuel ->
  incr (merge_inter fuel a b) /\ forall x, In x (merge_inter fuel a b) <-> In x a /\ In x b.
Proof.
  revert a b; induction fuel as [|fuel IH]; intros a b Ha Hb Hf.
  - destruct a; [|cbn in Hf; lia]. cbn. split; [intros [|i] j x y _ H; discriminate|tauto].
  - destruct a as [|x a]; [cbn; split; [intros [|i] j u v _ H; discriminate|tauto]|].
    destruct b as [|y b]; [cbn; split; [intros [|i] j u v _ H; discriminate|tauto]|].
    cbn [merge_inter].
    pose proof (incr_cons_inv _ _ Ha) as [Ha' Fa]. pose proof (incr_cons_inv _ _ Hb) as [Hb' Fb].
    rewrite Forall_forall in Fa, Fb.
    destruct (Nat.ltb_spec x y) as [Hxy|Hxy].
    + destruct (IH a (y :: b)) as [I1 I2]; auto; [cbn in *; lia|]. split; auto. intros z.
      rewrite I2. cbn. split; [tauto|]. intros [[->|H1] [->|H2]]; auto; try lia.
      specialize (Fb _ H2). lia.
    + destruct (Nat.ltb_spec y x) as [Hyx|Hyx].
      * destruct (IH (x :: a) b) as [I1 I2]; auto; [cbn in *; lia|]. split; auto. intros z.
        rewrite I2. cbn. split; [tauto|]. intros [[->|H1] [->|H2]]; auto; try lia.
        specialize (Fa _ H1). lia.
      * assert (x = y) by lia. subst y. destruct (IH a b) as [I1 I2]; auto; [cbn in *; lia|].
        split.
        -- apply incr_cons; auto. apply Forall_forall. intros z Hz. apply I2 in Hz. apply Fa; tauto.
        -- intros z. cbn. rewrite I2. split; [tauto|]. intros [[->|H1] [E|H2]]; auto.
Qed.
Lemma set_intersection_ok a b : incr a -> incr b ->
  exists c, set_intersection a b = Some c /\ incr c /\ forall x, In x c <-> In x a /\ In x b.
Proof.
  intros Ha Hb. unfold set_intersection. rewrite !incr_sortedb by auto. cbn [andb].
  eexists; split; [reflexivity|]. apply merge_inter_spec; auto.
Qed.
Lemma filter_ext_in_bool {A} (f g : A -> bool) l : (forall a, In a l -> f a = g a) -> filter f l = filter g l.
Proof. apply filter_ext_in. Qed.
Lemma find_erase_ok v l : NoDup v -> In l v ->
  find_erase v l = Some (filter (fun a => negb (a =? l)) v).
Proof.
  induction v as [|a v IH]; intros ND Hin; [destruct Hin|]. cbn [find_erase filter].
  inversion ND as [|? ? Hni ND']; subst. destruct (Nat.eqb_spec a l) as [->|Hn]; cbn [negb].
  - f_equal. clear IH ND Hin ND'. induction v as [|b v IH]; cbn; auto.
    destruct (Nat.eqb_spec b l) as [->|Hb]; cbn [negb]; [exfalso; apply Hni; left; auto|].
    f_equal. apply IH. intros X; apply Hni; right; auto.
  - destruct Hin as [->|Hin]; [congruence|]. rewrite IH by auto. reflexivity.
Qed.
Lemma filter_filter {A} (f g : A -> bool) l : filter f (filter g l) = filter (fun a => g a && f a) l.
Proof.
  induction l as [|a l IH]; cbn; auto. destruct (g a); cbn; [destruct (f a); cbn; congruence|auto].
Qed.
Lemma NoDup_filter' {A} (f : A -> bool) l : NoDup l -> NoDup (filter f l).
Proof. apply NoDup_filter. Qed.
Lemma filter_one (l : list nat) f a : NoDup l -> In a l -> f a = true ->
  (forall b, In b l -> f b = true -> b = a) -> filter f l = [a].
Proof.
  induction l as [|b l IH]; intros ND Hin Ha Hu; [destruct Hin|].
  inversion ND as [|? ? Hni ND']; subst. cbn. destruct (Nat.eq_dec b a) as [->|Hn].
  - rewrite Ha. f_equal. assert (forall c, In c l -> f c = false).
    { intros c Hc. destruct (f c) eqn:E; auto. assert (c = a) by (apply Hu; auto; right; auto). subst; tauto. }
    clear -H. induction l as [|c l IH]; cbn; auto. rewrite (H c) by (left; auto). apply IH. intros; apply H; right; auto.
  - destruct (f b) eqn:E; [exfalso; apply Hn, Hu; auto; left; auto|]. apply IH; auto.
    + destruct Hin; [congruence|auto].
    + intros c Hc. apply Hu; right; auto.
Qed.
Lemma filter_none {A} (l : list A) f : (forall b, In b l -> f b = false) -> filter f l = [].
Proof.
  induction l as [|a l IH]; intros H; cbn; auto. rewrite (H a) by (left; auto). apply IH. intros; apply H; right; auto.
Qed.
Lemma In_others a b l : In b (others a l) <-> In b l /\ b <> a.
Proof. unfold others. rewrite filter_In, negb_true_iff, Nat.eqb_neq. tauto. Qed.
Lemma incr_bound l n : incr l -> Forall (fun x => x < n) l -> length l <= n.
Proof.
  intros H F. rewrite <- (seq_length n 0). apply NoDup_incl_length; [apply incr_NoDup; auto|].
  intros x Hx. rewrite Forall_forall in F. apply in_seq. specialize (F _ Hx). lia.
Qed.
Lemma erase_seq n d : d < n -> erase_at (seq 0 n) d = Some (others d (seq 0 n)).
Proof.
  intros H. unfold erase_at. rewrite seq_length. destruct (Nat.ltb_spec d n); [|lia].
  rewrite <- remove_at_split. f_equal. apply remove_others; [apply seq_NoDup|].
  rewrite get_seq by auto. auto.
Qed.

Section TeamKnapsack.
Variables (D T : nat) (nzs : list (list nat)) (reward oric : list Qc) (X : list (list Qc)).
Hypothesis HD : length nzs = D.
Hypothesis Hr : length reward = T.
Hypothesis Ho : length oric = T.
Hypothesis HX : shape D T X.
Hypothesis Hnz : Forall (fun nz => incr nz /\ Forall (fun t => t < T) nz) nzs.
Let nz (d : nat) : list nat := nth d nzs [].
Hypothesis Htwo : forall d1 d2 d3 l, d1 < D -> d2 < D -> d3 < D ->
  In l (nz d1) -> In l (nz d2) -> In l (nz d3) -> d1 = d2 \/ d1 = d3 \/ d2 = d3.

Definition inb (l : nat) (L : list nat) : bool := existsb (Nat.eqb l) L.
Definition shared (d l : nat) : list nat := filter (fun d' => inb l (nz d')) (others d (seq 0 D)).
Definition tk_val (d l : nat) : Qc :=
  (nth l reward 0 + nth l oric 0 + qsum (map (fun d' => qat X d' l) (shared d l)))%Qc.

Lemma inb_In l L : inb l L = true <-> In l L.
Proof. apply existsb_In. Qed.
Lemma nz_ok d : d < D -> get nzs d = Some (nz d) /\ incr (nz d) /\ (forall t, In t (nz d) -> t < T).
Proof.
  intros H. unfold nz. rewrite (get_nth nzs d []) by lia. split; auto.
  rewrite Forall_forall in Hnz. destruct (Hnz (nth d nzs [])) as [A B]; [apply nth_In; lia|].
  rewrite Forall_forall in B. auto.
Qed.
Lemma shared_one d t l : d < D -> t < D -> t <> d -> In l (nz d) -> In l (nz t) -> shared d l = [t].
Proof.
  intros H1 H2 H3 H4 H5. unfold shared. apply filter_one.
  - apply NoDup_filter', seq_NoDup.
  - apply In_others. split; auto. apply in_seq; lia.
  - apply inb_In; auto.
  - intros b Hb Hi. apply In_others in Hb as [Hb Hn]. apply in_seq in Hb. apply inb_In in Hi.
    destruct (Htwo d t b l) as [?|[?|?]]; auto; try lia.
Qed.

Lemma team_to_knapsack_ok t2k : shape D T t2k ->
  exists t2k', team_to_knapsack D T nzs t2k (map Fin reward) (inj X) (map Fin oric) = Some t2k' /\
    shape D T t2k' /\
    (forall d l, d < D -> In l (nz d) -> get2 t2k' d l = Some (Fin (tk_val d l))) /\
    (forall d l, d < D -> ~ In l (nz d) -> get2 t2k' d l = get2 t2k d l).
Proof.
  intros HS. unfold team_to_knapsack.
  replace (length (inj X)) with D by (unfold inj; rewrite map_length; destruct HX; auto).
  match goal with |- context [for_up 0 D ?st0 ?bd] =>
    destruct (for_up_ind 0 D st0 bd (fun i k => shape D T k /\
      (forall d l, d < i -> In l (nz d) -> get2 k d l = Some (Fin (tk_val d l))) /\
      (forall d l, d < i -> ~ In l (nz d) -> get2 k d l = get2 t2k d l) /\
      (forall d l, i <= d -> get2 k d l = get2 t2k d l))) as (k & E & S & H1 & H2 & _) end.
  - lia.
  - split; auto. split; [intros; lia|]. split; [intros; lia|auto].
  - intros d k Hd (S & H1 & H2 & H3).
    destruct (nz_ok d) as (G & I & B); [lia|]. rewrite G; cbn [bind].
    rewrite erase_seq by lia. cbn [bind].
    assert (ND : NoDup (others d (seq 0 D))) by (apply NoDup_filter', seq_NoDup).
    destruct (foldM_ind (share_department T d nzs (map Fin reward) (map Fin oric) (inj X))
      (fun done st => shape D T (fst st) /\
         snd st = filter (fun l => negb (existsb (fun d' => inb l (nz d')) done)) (nz d) /\
         (forall d' l, d' <> d -> get2 (fst st) d' l = get2 k d' l) /\
         (forall l, In l (nz d) -> existsb (fun d' => inb l (nz d')) done = true ->
            get2 (fst st) d l = Some (Fin (tk_val d l))) /\
         (forall l, ~ (In l (nz d) /\ existsb (fun d' => inb l (nz d')) done = true) ->
            get2 (fst st) d l = get2 k d l))
      (others d (seq 0 D)) (k, nz d)) as ([k1 u1] & E1 & S1 & U1 & J1 & V1 & W1).
    { cbn [fst snd]. split; auto. split.
      - cbn. symmetry. clear. induction (nz d) as [|a l IH]; cbn; auto. f_equal; auto.
      - split; auto. split; auto. intros l _ X0; discriminate. }
    { intros done t rest [k1 u1] Heq (S1 & U1 & J1 & V1 & W1). cbn [fst snd] in *.
      assert (Ht : In t (others d (seq 0 D))) by (rewrite Heq; apply in_or_app; right; left; auto).
      apply In_others in Ht as [Ht Htd]. apply in_seq in Ht.
      assert (Hdone : forall d', In d' done -> d' < D /\ d' <> d /\ d' <> t).
      { intros d' Hd'. assert (In d' (others d (seq 0 D))) by (rewrite Heq; apply in_or_app; auto).
        apply In_others in H as [H Hn]. apply in_seq in H. split; [lia|]. split; auto.
        intros ->. rewrite Heq in ND. apply NoDup_remove_2 in ND. apply ND, in_or_app; auto. }
      unfold share_department. destruct (nz_ok t) as (Gt & It & Bt); [lia|]. rewrite G, Gt; cbn [bind].
      destruct (set_intersection_ok (nz d) (nz t) I It) as (c & Ec & Ic & Hc). rewrite Ec; cbn [bind].
      assert (Lc : length c <= T).
      { apply incr_bound; auto. apply Forall_forall. intros x Hx. apply B, (proj1 (Hc x)); auto. }
      destruct (Nat.leb_spec (length c) T); [|lia]. cbn [bind].
      assert (NDc : NoDup c) by (apply incr_NoDup; auto).
      (* members of the intersection are in no department handled before *)
      assert (FRESH : forall l, In l c -> existsb (fun d' => inb l (nz d')) done = false).
      { intros l Hl. apply Hc in Hl as [Hl1 Hl2]. destruct (existsb _ done) eqn:Ex; auto.
        apply existsb_exists in Ex as (d' & Hd' & Hi). apply inb_In in Hi.
        destruct (Hdone d' Hd') as (A1 & A2 & A3).
        destruct (Htwo d t d' l) as [?|[?|?]]; auto; try lia. }
      destruct (foldM_ind (fun st l =>
          let '(t2k, unique) := st in
          r <- get (map Fin reward) l ;; e <- get2 (inj X) t l ;; o <- get (map Fin oric) l ;;
          t2k <- set2 t2k d l (nadd (nadd r e) o) ;;
          unique <- find_erase unique l ;; Some (t2k, unique))
        (fun dn st => shape D T (fst st) /\
          snd st = filter (fun l => negb (existsb (fun d' => inb l (nz d')) done) && negb (inb l dn)) (nz d) /\
          (forall d' l, d' <> d -> get2 (fst st) d' l = get2 k1 d' l) /\
          (forall l, In l dn -> get2 (fst st) d l = Some (Fin (tk_val d l))) /\
          (forall l, ~ In l dn -> get2 (fst st) d l = get2 k1 d l))
        c (k1, u1)) as ([k2 u2] & E2 & S2 & U2 & J2 & V2 & W2).
      { cbn [fst snd]. split; auto. split.
        - rewrite U1. apply filter_ext_in_bool. intros a _. cbn. rewrite andb_true_r. auto.
        - split; auto. split; auto. intros l []. }
      { intros dn l rest' [k2 u2] Hceq (S2 & U2 & J2 & V2 & W2). cbn [fst snd] in *.
        assert (Hl : In l c) by (rewrite Hceq; apply in_or_app; right; left; auto).
        assert (Hndn : ~ In l dn).
        { intros X0. rewrite Hceq in NDc. apply NoDup_remove_2 in NDc. apply NDc, in_or_app; auto. }
        pose proof (proj1 (Hc l) Hl) as [Hl1 Hl2].
        assert (LT : l < T) by (apply B; auto).
        rewrite !(get_mapFin _ _ T) by auto. rewrite (get2_inj D T) by (auto; lia). cbn [bind nadd].
        rewrite (set2_lt D T) by (auto; lia). cbn [bind].
        rewrite U2, find_erase_ok.
        2:{ apply NoDup_filter', incr_NoDup; auto. }
        2:{ apply filter_In. split; auto. rewrite (FRESH l Hl). cbn [negb andb].
            apply negb_true_iff. destruct (inb l dn) eqn:Ei; auto. apply inb_In in Ei. tauto. }
        cbn [bind]. eexists; split; [reflexivity|]. cbn [fst snd]. split; [apply shape_upd2; auto|].
        split.
        { rewrite filter_filter. apply filter_ext_in_bool. intros a _. unfold inb. rewrite existsb_app. cbn.
          rewrite orb_false_r, negb_orb, andb_assoc. reflexivity. }
        split.
        { intros d' l' Hd'. rewrite (get2_upd2 D T) by (auto; lia).
          destruct (Nat.eqb_spec d d'); [congruence|]. cbn [andb]. auto. }
        split.
        { intros l' Hl'. rewrite (get2_upd2 D T) by (auto; lia). rewrite Nat.eqb_refl. cbn [andb].
          destruct (Nat.eqb_spec l l') as [<-|Hn].
          - do 2 f_equal. unfold tk_val. rewrite (shared_one d t l) by (auto; lia). cbn [map].
            rewrite qsum_cons. change (qsum []) with 0%Qc. qlra.
          - apply V2. apply in_app_or in Hl' as [?|[?|[]]]; auto; congruence. }
        { intros l' Hl'. rewrite (get2_upd2 D T) by (auto; lia). rewrite Nat.eqb_refl. cbn [andb].
          destruct (Nat.eqb_spec l l') as [<-|Hn].
          - exfalso; apply Hl', in_or_app; right; left; auto.
          - apply W2. intros X0; apply Hl', in_or_app; auto. } }
      eexists; split; [exact E2|]. cbn [fst snd] in *. split; auto. split.
      { rewrite U2. apply filter_ext_in_bool. intros a Ha. rewrite existsb_app, negb_orb. cbn.
        rewrite orb_false_r. f_equal. f_equal. destruct (inb a (nz t)) eqn:Ei.
        - apply inb_In, Hc. split; auto. apply inb_In; auto.
        - destruct (inb a c) eqn:Ej; auto. apply inb_In, Hc in Ej as [_ Ej]. apply inb_In in Ej. congruence. }
      split.
      { intros d' l Hd'. rewrite J2, J1; auto. }
      split.
      { intros l Hl Hex. rewrite existsb_app in Hex. apply orb_prop in Hex as [Hex|Hex].
        - destruct (in_dec Nat.eq_dec l c) as [Hlc|Hlc]; [auto|]. rewrite W2 by auto. auto.
        - cbn in Hex. rewrite orb_false_r in Hex. apply inb_In in Hex. apply V2, Hc; auto. }
      { intros l Hl. destruct (in_dec Nat.eq_dec l c) as [Hlc|Hlc].
        - exfalso; apply Hl. pose proof (proj1 (Hc l) Hlc) as [A1 A2]. split; auto.
          rewrite existsb_app. cbn. apply inb_In in A2. rewrite A2. rewrite orb_true_r; auto.
        - rewrite W2 by auto. apply W1. intros [A1 A2]. apply Hl. split; auto.
          rewrite existsb_app, A2. auto. } }
    cbn [fst snd] in *. rewrite E1; cbn [bind].
    (* the teams of this department only *)
    assert (U1In : forall u, In u u1 <-> In u (nz d) /\ existsb (fun d' => inb u (nz d')) (others d (seq 0 D)) = false).
    { intros u. rewrite U1, filter_In, negb_true_iff. tauto. }
    destruct (foldM_ind (fun t2k u => r <- get (map Fin reward) u ;; o <- get (map Fin oric) u ;;
                                      set2 t2k d u (nadd r o))
      (fun dn kk => shape D T kk /\
        (forall d' l, d' <> d -> get2 kk d' l = get2 k1 d' l) /\
        (forall l, In l dn -> get2 kk d l = Some (Fin (tk_val d l))) /\
        (forall l, ~ In l dn -> get2 kk d l = get2 k1 d l)) u1 k1) as (k2 & E2 & S2 & J2 & V2 & W2).
    { split; auto. split; auto. split; auto. intros l []. }
    { intros dn u rest kk Heq (S2 & J2 & V2 & W2).
      assert (Hu : In u u1) by (rewrite Heq; apply in_or_app; right; left; auto).
      apply U1In in Hu as [Hu1 Hu2]. assert (LT : u < T) by (apply B; auto).
      rewrite !(get_mapFin _ _ T) by auto. cbn [bind nadd]. rewrite (set2_lt D T) by (auto; lia).
      eexists; split; [reflexivity|]. split; [apply shape_upd2; auto|]. split.
      { intros d' l' Hd'. rewrite (get2_upd2 D T) by (auto; lia).
        destruct (Nat.eqb_spec d d'); [congruence|]. cbn [andb]. auto. }
      split.
      { intros l' Hl'. rewrite (get2_upd2 D T) by (auto; lia). rewrite Nat.eqb_refl. cbn [andb].
        destruct (Nat.eqb_spec u l') as [<-|Hn].
        - do 2 f_equal. unfold tk_val, shared. rewrite filter_none.
          + cbn [map]. change (qsum []) with 0%Qc. qlra.
          + intros b Hb. destruct (inb u (nz b)) eqn:Ei; auto.
            assert (existsb (fun d' => inb u (nz d')) (others d (seq 0 D)) = true)
              by (apply existsb_exists; eauto). congruence.
        - apply V2. apply in_app_or in Hl' as [?|[?|[]]]; auto; congruence. }
      { intros l' Hl'. rewrite (get2_upd2 D T) by (auto; lia). rewrite Nat.eqb_refl. cbn [andb].
        destruct (Nat.eqb_spec u l') as [<-|Hn].
        - exfalso; apply Hl', in_or_app; right; left; auto.
        - apply W2. intros X0; apply Hl', in_or_app; auto. } }
    eexists; split; [exact E2|]. split; auto.
    split; [|split].
    + intros d' l Hd' Hl. destruct (Nat.eq_dec d' d) as [->|Hn].
      * destruct (in_dec Nat.eq_dec l u1) as [Hu|Hu]; [auto|]. rewrite W2 by auto. apply V1; auto.
        destruct (existsb (fun d' => inb l (nz d')) (others d (seq 0 D))) eqn:Ex; auto.
        exfalso; apply Hu, U1In; auto.
      * rewrite J2, J1 by auto. apply H1; auto; lia.
    + intros d' l Hd' Hl. destruct (Nat.eq_dec d' d) as [->|Hn].
      * rewrite W2 by (rewrite U1In; tauto). rewrite W1 by tauto. apply H3; lia.
      * rewrite J2, J1 by auto. apply H2; auto; lia.
    + intros d' l Hd'. rewrite J2, J1 by lia. apply H3; lia.
  - exists k. split; [exact E|]. split; auto.
Qed.
End TeamKnapsack.
