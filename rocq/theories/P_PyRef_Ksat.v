(** * Proofs: the pure Python K-SAT updates agree with the C++ ones. *)
From Coq Require Import Permutation.
From Verif Require Import Num NumFacts Arr ArrFacts MinSum MinSumFacts Spec M_Ksat M_InOut M_PyRef
  M_PyRef_Ksat P_Tsp_Constraints P_Kc_Trellis P_Ksat P_InOut P_PyRef P_Equality.
Local Open Scope nat_scope.

(** ** Clauses *)
Lemma seq_split_at n done a rest : seq 0 n = done ++ a :: rest -> a = length done /\ length done < n.
Proof.
  intros E. assert (L : length done < n).
  { apply (f_equal (@length _)) in E. rewrite seq_length, app_length in E. cbn in E. lia. }
  split; auto. pose proof (seq_nth 0 0 L) as H. rewrite E, app_nth2 in H by lia.
  rewrite Nat.sub_diag in H. cbn in H. lia.
Qed.
Lemma get_combine {A B} (l : list A) (m : list B) i a b : get l i = Some a -> get m i = Some b ->
  get (combine l m) i = Some (a, b).
Proof.
  unfold get. revert m i; induction l as [|x l IH]; intros [|y m] [|i] H1 H2; cbn in *; try congruence; auto.
Qed.
Lemma others_of_type_ok conx tys ty v : length tys = length conx ->
  others_of_type conx tys ty v =
    Some (map fst (filter (fun p => (snd p =? ty)%Z && negb (fst p =? v)) (combine conx tys))).
Proof.
  intros HL. unfold others_of_type.
  match goal with |- context [foldM ?bd ?l ?s] =>
    destruct (foldM_ind bd (fun done acc => acc = map fst (filter (fun p => (snd p =? ty)%Z && negb (fst p =? v))
      (firstn (length done) (combine conx tys)))) l s) as (r & E & ->) end.
  - reflexivity.
  - intros done a rest s Eq ->. apply seq_split_at in Eq as [-> Hlt].
    destruct (get_lt conx (length done)) as [x Hx]; [lia|].
    destruct (get_lt tys (length done)) as [t Ht]; [lia|].
    rewrite Hx, Ht. cbn [bind]. eexists; split; [reflexivity|].
    rewrite app_length. cbn [length]. rewrite Nat.add_1_r, <- Nat.add_1_r.
    rewrite (firstn_succ _ _ _ (get_combine _ _ _ _ _ Hx Ht)), filter_app, map_app. cbn [filter fst snd].
    destruct ((t =? ty)%Z && negb (x =? v)); cbn [map fst]; auto. rewrite app_nil_r; auto.
  - rewrite E. rewrite seq_length, (firstn_all2 (combine conx tys)); auto.
    rewrite combine_length. lia.
Qed.

Lemma nopp_nopp a : nopp (nopp a) = a.
Proof. destruct a; cbn; auto. f_equal. qlra. Qed.
Lemma nopp_notnan a : notnan a -> notnan (nopp a).
Proof. destruct a; cbn; unfold notnan; cbn; congruence. Qed.
Lemma nmax_nopp a b : notnan a -> notnan b -> nmax (nopp a) (nopp b) = nopp (nmin a b).
Proof.
  destruct a as [a| | |], b as [b| | |]; unfold notnan, nmax, nmin; cbn; try congruence; auto.
  intros _ _. destruct (qltb_spec (- a) (- b)), (qltb_spec b a); auto; exfalso; qlra.
Qed.
Lemma fold_np_max_opp l a : notnan a -> Forall notnan l ->
  fold_left np_maximum (map nopp l) (nopp a) = nopp (fold_left nmin l a).
Proof.
  intros Ha H; revert a Ha; induction H as [|x l Hx H IH]; intros a Ha; cbn; auto.
  rewrite np_maximum_nmax by (apply nopp_notnan; auto). rewrite nmax_nopp by auto.
  apply IH. apply nmin_notnan; auto.
Qed.
Lemma np_max_opp l : l <> [] -> Forall notnan l -> np_max (map nopp l) = Some (nopp (nmins l)).
Proof.
  destruct l as [|a l]; [congruence|]. intros _ H. inversion H; subst. cbn [map np_max].
  rewrite fold_np_max_opp by auto. rewrite nmins_fold_left by auto. reflexivity.
Qed.
Lemma map_nopp_Fin l : map nopp (map Fin l) = map Fin (map Qcopp l).
Proof. rewrite !map_map. reflexivity. Qed.

Lemma map_opp_opp l : map nopp (map Fin (map Qcopp l)) = map Fin l.
Proof. induction l as [|a l IH]; cbn [map]; auto. rewrite IH. cbn [nopp]. f_equal. f_equal. qlra. Qed.

Definition sided (positive : bool) (a : num) : num := if positive then nopp a else a.
Lemma best_solid_ok positive l : best_solid positive (map Fin l) = Some (sided positive (nmins (map Fin l))).
Proof.
  destruct l as [|a l]; [destruct positive; reflexivity|]. unfold best_solid. cbn [map].
  change (Fin a :: map Fin l) with (map Fin (a :: l)).
  change (nopp (Fin a) :: map nopp (map Fin l)) with (map nopp (map Fin (a :: l))).
  rewrite np_max_opp by (discriminate || apply Forall_Fin).
  rewrite np_min_Fin by discriminate. cbn [bind]. destruct positive; reflexivity.
Qed.
Lemma best_dashed_ok positive l :
  best_dashed positive (map Fin l) = Some (sided positive (nmins (map Fin (map Qcopp l)))).
Proof.
  destruct l as [|a l]; [destruct positive; reflexivity|]. unfold best_dashed. cbn [map].
  change (Fin a :: map Fin l) with (map Fin (a :: l)).
  change (nopp (Fin a) :: map nopp (map Fin l)) with (map nopp (map Fin (a :: l))).
  replace (map Fin (a :: l)) with (map nopp (map Fin (map Qcopp (a :: l)))) at 1.
  2:{ apply map_opp_opp. }
  rewrite np_max_opp by (discriminate || apply Forall_Fin).
  rewrite map_nopp_Fin, np_min_Fin by discriminate. cbn [bind]. destruct positive; reflexivity.
Qed.

(** the minimum over the other literals, split by sign *)
Lemma nmins_split {A} (pos : A -> bool) (f : A -> Qc) (l : list A) :
  nmins (map Fin (map (fun p => (f p * sgn (pos p))%Qc) l)) =
  nmin (nmins (map Fin (map f (filter pos l))))
       (nmins (map Fin (map Qcopp (map f (filter (fun p => negb (pos p)) l))))).
Proof.
  induction l as [|p l IH]; cbn [map filter nmins]; [reflexivity|].
  rewrite IH. destruct (pos p); cbn [negb map nmins].
  - replace (f p * sgn true)%Qc with (f p) by (cbn; qlra).
    apply nmin_assoc; auto using nmins_notnan, Forall_Fin. discriminate.
  - replace (f p * sgn false)%Qc with (- f p)%Qc by (cbn; qlra).
    set (x := nmins (map Fin (map f _))). set (y := nmins _).
    assert (notnan x) by (apply nmins_notnan, Forall_Fin). assert (notnan y) by (apply nmins_notnan, Forall_Fin).
    assert (notnan (Fin (- f p))) by discriminate.
    rewrite !nmin_assoc by auto. rewrite (nmin_comm (Fin _) x) by auto. rewrite <- nmin_assoc by auto. reflexivity.
Qed.

Lemma lit_costs_combine (f : nat -> Qc) conx tys : length tys = length conx ->
  lit_costs (signs tys) (map f conx) = map (fun p => (f (fst p) * sgn (snd p =? 1)%Z)%Qc) (combine conx tys).
Proof.
  revert tys; induction conx as [|v conx IH]; intros [|t tys] H; cbn in *; try lia; auto.
  f_equal. apply IH. lia.
Qed.
Lemma remove_at_filter (ps : list (nat * Z)) i v t : NoDup (map fst ps) -> get ps i = Some (v, t) ->
  remove_at i ps = filter (fun p => negb (fst p =? v)) ps.
Proof.
  unfold get. revert i; induction ps as [|p ps IH]; intros [|i] ND H; cbn in *; try congruence;
    inversion ND as [|? ? Hn ND']; subst.
  - injection H as ->. cbn. rewrite Nat.eqb_refl. cbn. symmetry.
    cbn [fst] in Hn. clear -Hn. induction ps as [|q ps IH]; cbn; auto.
    destruct (Nat.eqb_spec (fst q) v) as [<-|]; cbn; [exfalso; apply Hn; left; auto|]. f_equal. apply IH.
    intros X; apply Hn; right; auto.
  - destruct (Nat.eqb_spec (fst p) v) as [<-|Hne]; cbn.
    + exfalso. apply Hn. apply nth_error_In in H. apply in_map_iff. exists (fst p, t); auto.
    + f_equal. auto.
Qed.

Lemma clause_val_min cs i s :
  clause_val cs i s = let x := nmins (map Fin (remove_at i cs)) in
    if s then nmin n0 (nopp x) else nmax n0 x.
Proof.
  unfold clause_val, alo. cbn zeta. set (l := remove_at i cs).
  pose proof (nmins_is_min l) as V. destruct (nmins (map Fin l)) as [b| | |] eqn:E; cbn in V; try tauto.
  - unfold nmax, nmin, n0. cbn [nopp nlt].
    destruct s; [rewrite nmul_sgn_true|rewrite nmul_sgn_false];
      destruct (qltb_spec b 0); destruct (qltb_spec (- b) 0); destruct (qltb_spec 0 b);
      unfold nsub; cbn [nadd nopp]; try (exfalso; qlra); f_equal; qlra.
  - destruct s; [rewrite nmul_sgn_true|rewrite nmul_sgn_false]; reflexivity.
Qed.

Lemma combine_fst_map {A B} (l : list A) (m : list B) : length m = length l -> map fst (combine l m) = l.
Proof. revert m; induction l as [|x l IH]; intros [|y m] H; cbn in *; try lia; auto. f_equal; auto. Qed.

Lemma filter_filter {A} (f g : A -> bool) l : filter f (filter g l) = filter (fun a => f a && g a) l.
Proof.
  induction l as [|a l IH]; cbn; auto. destruct (g a) eqn:G; cbn.
  - rewrite andb_true_r. destruct (f a); rewrite IH; auto.
  - rewrite andb_false_r. auto.
Qed.

(** the value Python computes for one member of a clause *)
Lemma py_clause_value M c conx tys i v t nv k : clause_wf nv k conx tys ->
  get conx i = Some v -> get tys i = Some t ->
  forall solid dashed,
    others_of_type conx tys 1%Z v = Some solid -> others_of_type conx tys (-1)%Z v = Some dashed ->
    let sv := map Fin (map (fun n => qat M c n) solid) in
    let dv := map Fin (map (fun n => qat M c n) dashed) in
    let positive := (t =? 1)%Z in
    exists s d, best_solid positive sv = Some s /\ best_dashed positive dv = Some d /\
      (if positive then nmin n0 (nmax s d) else nmax n0 (nmin s d))
        = clause_val (clause_costs M c conx tys) i positive.
Proof.
  intros (L1 & L2 & ND & HB & HT) Hv Ht solid dashed Es Ed. cbn zeta.
  rewrite others_of_type_ok in Es, Ed by lia. injection Es as <-. injection Ed as <-.
  rewrite best_solid_ok, best_dashed_ok. do 2 eexists. split; [reflexivity|]. split; [reflexivity|].
  rewrite clause_val_min. cbn zeta. unfold clause_costs. rewrite lit_costs_combine by lia.
  rewrite remove_at_map, (remove_at_filter _ i v t); [|rewrite combine_fst_map by lia; auto|apply get_combine; auto].
  rewrite (nmins_split (fun p => (snd p =? 1)%Z) (fun p => qat M c (fst p))).
  rewrite !filter_filter, !(map_map fst).
  rewrite (filter_ext_in (fun a => negb (snd a =? 1)%Z && negb (fst a =? v))
                         (fun a => (snd a =? -1)%Z && negb (fst a =? v))).
  2:{ intros [x s] Hin. apply in_combine_r in Hin. rewrite Forall_forall in HT. specialize (HT _ Hin).
      cbn [fst snd]. destruct HT as [-> | ->]; reflexivity. }
  set (x := nmins (map Fin (map (fun p => qat M c (fst p)) (filter (fun p => (snd p =? 1)%Z && negb (fst p =? v)) (combine conx tys))))).
  set (y := nmins (map Fin (map Qcopp _))).
  unfold sided. destruct (t =? 1)%Z; auto. rewrite nmax_nopp; auto; apply nmins_notnan, Forall_Fin.
Qed.

Lemma py_ksat_ok nc nv k M conns types :
  shape nc nv M -> length conns = nc -> length types = nc ->
  (forall c conx tys, get conns c = Some conx -> get types c = Some tys -> clause_wf nv k conx tys) ->
  exists out', py_ksat_update nv nc (inj M) conns types = Some out' /\ shape nc nv out' /\
    (forall c conx tys, get conns c = Some conx -> get types c = Some tys ->
      (forall j v s, get conx j = Some v -> get (signs tys) j = Some s ->
         get2 out' c v = Some (clause_val (clause_costs M c conx tys) j s)) /\
      (forall v, v < nv -> ~ In v conx -> get2 out' c v = Some n0)).
Proof.
  intros HM LC LT Hwf. unfold py_ksat_update.
  assert (HZ : shape nc nv (np_zeros nc nv)) by apply shape_repeat.
  assert (GZ : forall c v, c < nc -> v < nv -> get2 (np_zeros nc nv) c v = Some n0).
  { intros c v Hc Hv. unfold get2, np_zeros. rewrite get_repeat by auto. cbn [bind]. apply get_repeat; auto. }
  match goal with |- context [for_up 0 nc ?st0 ?bd] =>
    destruct (for_up_ind 0 nc st0 bd (fun i o => shape nc nv o /\
      (forall c conx tys, c < i -> get conns c = Some conx -> get types c = Some tys ->
        (forall j v s, get conx j = Some v -> get (signs tys) j = Some s ->
           get2 o c v = Some (clause_val (clause_costs M c conx tys) j s)) /\
        (forall v, v < nv -> ~ In v conx -> get2 o c v = Some n0)) /\
      (forall c v, i <= c < nc -> v < nv -> get2 o c v = Some n0))) as (o & E & S3 & A & _) end.
  - lia.
  - split; auto. split; [intros; lia|]. intros; apply GZ; auto; lia.
  - intros c o Hi (HS & A & B).
    destruct (get_lt conns c) as [conx Hcx]; [lia|]. destruct (get_lt types c) as [tys Hty]; [lia|].
    rewrite Hcx, Hty. cbn [bind]. pose proof (Hwf _ _ _ Hcx Hty) as W.
    pose proof W as (L1 & L2 & ND & HB & HT). rewrite Forall_forall in HB.
    match goal with |- context [for_up 0 (length conx) ?st0 ?bd] =>
      destruct (for_up_ind 0 (length conx) st0 bd (fun i q => shape nc nv q /\
        (forall c' v, c' <> c -> c' < nc -> v < nv -> get2 q c' v = get2 o c' v) /\
        (forall j v s, j < i -> get conx j = Some v -> get (signs tys) j = Some s ->
           get2 q c v = Some (clause_val (clause_costs M c conx tys) j s)) /\
        (forall v, v < nv -> ~ In v (firstn i conx) -> get2 q c v = Some n0))) as (q & Eq & Sq & Q1 & Q2 & Q3) end.
    + lia.
    + split; auto. split; auto. split; [intros; lia|]. intros; apply B; auto; lia.
    + intros i q Hi' (Sq & Q1 & Q2 & Q3).
      destruct (get_lt conx i) as [v Hv]; [lia|]. destruct (get_lt tys i) as [t Ht]; [lia|].
      rewrite Hv. cbn [bind].
      assert (Lv : v < nv) by (apply HB; eapply nth_error_In; eauto).
      destruct (others_of_type conx tys 1%Z v) as [solid|] eqn:Es; [|rewrite others_of_type_ok in Es by lia; discriminate].
      destruct (others_of_type conx tys (-1)%Z v) as [dashed|] eqn:Ed; [|rewrite others_of_type_ok in Ed by lia; discriminate].
      cbn [bind]. rewrite Ht. cbn [bind].
      assert (R : forall ty l, others_of_type conx tys ty v = Some l ->
        mapM (fun n => get2 (inj M) c n) l = Some (map Fin (map (fun n => qat M c n) l))).
      { intros ty l El. apply mapM_map_Fin. intros n Hn. apply (get2_inj nc nv); auto; [lia|].
        rewrite others_of_type_ok in El by lia. injection El as <-. apply in_map_iff in Hn as ((x & s) & <- & Hn).
        apply filter_In in Hn as [Hn _]. apply in_combine_l in Hn. apply HB; auto. }
      rewrite (R _ _ Es), (R _ _ Ed).
      destruct (py_clause_value M c conx tys i v t nv k W Hv Ht _ _ Es Ed) as (s & d & X1 & X2 & X3).
      cbn zeta in X1, X2, X3. cbn [bind]. rewrite X1. cbn [bind]. rewrite X2. cbn [bind]. rewrite X3.
      rewrite (set2_lt nc nv) by (auto; lia). eexists; split; [reflexivity|].
      split; [apply shape_upd2; auto|]. split; [|split].
      * intros c' v' Hc' Hc1 Hv'. rewrite <- Q1 by auto. rewrite (get2_upd2 nc nv) by (auto; lia).
        destruct (Nat.eqb_spec c c'); [congruence|]. reflexivity.
      * intros j v' s' Hj Hv' Hs'. rewrite (get2_upd2 nc nv); auto; try lia.
        rewrite Nat.eqb_refl. cbn [andb]. destruct (Nat.eqb_spec v v') as [<-|Hne].
        -- assert (j = i) as ->.
           { eapply (proj1 (NoDup_nth_error conx) ND); [eapply get_Some_lt; eauto|]. unfold get in *. congruence. }
           unfold signs in Hs'. rewrite get_map, Ht in Hs'. cbn in Hs'. injection Hs' as <-. reflexivity.
        -- apply Q2; auto. destruct (Nat.eq_dec j i) as [->|]; [congruence|lia].
      * intros v' Hv' Hn. rewrite (firstn_succ _ _ _ Hv) in Hn. rewrite (get2_upd2 nc nv); auto; try lia.
        rewrite Nat.eqb_refl. cbn [andb]. destruct (Nat.eqb_spec v v') as [<-|Hne].
        -- exfalso; apply Hn, in_or_app; right; left; auto.
        -- apply Q3; auto. intros X; apply Hn, in_or_app; auto.
    + rewrite Eq. eexists; split; [reflexivity|]. split; auto. split.
      * intros c' conx' tys' Hc' Hcx' Hty'. destruct (Nat.eq_dec c' c) as [->|Hn].
        -- assert (conx' = conx) by congruence. assert (tys' = tys) by congruence. subst. split.
           ++ intros j v s Hj Hs. apply Q2; auto. eapply get_Some_lt; eauto.
           ++ intros v Hv' Hn. apply Q3; auto. rewrite firstn_all. auto.
        -- destruct (A c' conx' tys') as [P1 P2]; auto; [lia|]. split; [intros j v s Hj Hs | intros v Hv' Hn'];
           rewrite Q1; eauto; try lia. pose proof (Hwf _ _ _ Hcx' Hty') as (_ & _ & _ & HB' & _).
           rewrite Forall_forall in HB'. apply HB'. eapply nth_error_In; eauto.
      * intros c' v Hc' Hv'. rewrite Q1 by lia. apply B; auto; lia.
  - exists o. split; [exact E|]. split; auto.
    intros c conx tys Hcx Hty. apply A; auto. rewrite <- LC. eapply get_Some_lt; eauto.
Qed.

Lemma ksat_same nc nv k M out conns types :
  shape nc nv M -> shape nc nv out -> length conns = nc -> length types = nc ->
  (forall c conx tys, get conns c = Some conx -> get types c = Some tys -> clause_wf nv k conx tys) ->
  exists R, py_ksat_update nv nc (inj M) conns types = Some R /\
    ksat_update nc k (inj M) out conns types = Some R /\ shape nc nv R.
Proof.
  intros HM HO LC LT Hwf.
  destruct (py_ksat_ok nc nv k M conns types) as (R & E & SR & G); auto.
  destruct (ksat_update_ok nc nv k M out conns types) as (R' & E' & SR' & G'); auto.
  exists R. split; auto. split; auto. rewrite E'. f_equal. apply (shape_ext nc nv); auto.
  intros c v Hc Hv. destruct (get_lt conns c) as [conx Hcx]; [lia|]. destruct (get_lt types c) as [tys Hty]; [lia|].
  destruct (G _ _ _ Hcx Hty) as [P1 P2]. destruct (G' _ _ _ Hcx Hty) as [P1' P2'].
  destruct (in_dec Nat.eq_dec v conx) as [Hin|Hn]; [|rewrite P2, P2'; auto].
  apply In_nth_error in Hin as [j Hj]. pose proof (Hwf _ _ _ Hcx Hty) as (L1 & L2 & _).
  pose proof (get_Some_lt _ _ _ Hj) as Lj.
  destruct (get_lt (signs tys) j) as [s Hs]; [unfold signs; rewrite map_length; lia|].
  rewrite (P1 j v s), (P1' j v s); auto.
Qed.

(** ** Variables *)
Lemma qsum_perm l l' : Permutation l l' -> qsum l = qsum l'.
Proof.
  induction 1; auto.
  - rewrite !qsum_cons, IHPermutation; auto.
  - rewrite !qsum_cons. qlra.
  - congruence.
Qed.
Lemma qsum_filter_zero {A} (f : A -> Qc) (p : A -> bool) l : (forall a, In a l -> p a = false -> f a = 0%Qc) ->
  qsum (map f l) = qsum (map f (filter p l)).
Proof.
  induction l as [|a l IH]; intros H; cbn [map filter]; auto.
  rewrite qsum_cons, IH by (intros; apply H; auto; right; auto).
  destruct (p a) eqn:E; cbn [map]; [rewrite qsum_cons; auto|].
  rewrite (H a) by (auto; left; auto). qlra.
Qed.
Lemma qsum_outside (f : nat -> Qc) n l : NoDup l -> (forall c, In c l -> c < n) ->
  (forall c, c < n -> ~ In c l -> f c = 0%Qc) -> qsum (map f (seq 0 n)) = qsum (map f l).
Proof.
  intros ND HB HZ. rewrite (qsum_filter_zero f (fun c => existsb (Nat.eqb c) l)).
  2:{ intros a Ha E. apply in_seq in Ha. apply HZ; [lia|]. intros X. apply existsb_eqb_In in X. congruence. }
  apply qsum_perm, Permutation_map, NoDup_Permutation; auto.
  - apply NoDup_filter, seq_NoDup.
  - intros c. rewrite filter_In, existsb_eqb_In, in_seq. split; [tauto|]. intros H; split; auto.
    specialize (HB c H). lia.
Qed.

Lemma sum_axis0_ok nc nv M : shape nc nv M ->
  sum_axis0 nv (inj M) = Some (map Fin (map (fun v => qsum (col M nc v)) (seq 0 nv))).
Proof.
  intros HM. unfold sum_axis0. apply mapM_map_Fin. intros j Hj. apply in_seq in Hj.
  rewrite (column_inj nc nv) by (auto; lia). cbn [bind]. rewrite np_sum_Fin. reflexivity.
Qed.
Lemma used_costs_ok nv used cost : length cost = nv -> Forall (fun v => v < nv) used ->
  used_costs nv used (map Fin cost) = Some (map Fin (scatter nv used (fun v => nth v cost 0%Qc))).
Proof.
  intros HL HU. rewrite Forall_forall in HU. unfold used_costs.
  rewrite np_take_Fin by (intros; rewrite HL; auto). cbn [bind]. apply np_put_scatter; auto.
Qed.

Section PyVar.
  Context (nc nv : nat) (M : list (list Qc)) (cost : list Qc) (used : list nat) (vconns : list (list nat)).
  Context (HM : shape nc nv M) (Hcost : length cost = nv) (Hvc : length vconns = nv)
          (Hused : Forall (fun v => v < nv) used)
          (Hconn : forall v l, get vconns v = Some l -> Forall (fun c => c < nc) l).

  Lemma py_variable_ok :
    exists R, py_variable_update nv nc (inj M) used (map Fin cost) vconns = Some R /\ shape nc nv R /\
      (forall v l c, In v used -> get vconns v = Some l -> In c l ->
         get2 R c v = Some (Fin (nth v cost 0 + qsum (col M nc v) - qat M c v)%Qc)) /\
      (forall c v, c < nc -> v < nv -> ~ (In v used /\ exists l, get vconns v = Some l /\ In c l) ->
         get2 R c v = Some n0).
  Proof.
    unfold py_variable_update. rewrite used_costs_ok by auto. cbn [bind].
    rewrite (sum_axis0_ok nc) by auto. cbn [bind]. unfold scatter. rewrite np_add_Fin by (rewrite !map_length; auto).
    rewrite qplus_map. cbn [bind].
    match goal with |- context [foldM ?bd used ?st] =>
      destruct (foldM_ind bd (fun done o => shape nc nv o /\
        (forall v l c, In v done -> get vconns v = Some l -> In c l ->
           get2 o c v = Some (Fin (nth v cost 0 + qsum (col M nc v) - qat M c v)%Qc)) /\
        (forall c v, c < nc -> v < nv -> ~ (In v done /\ exists l, get vconns v = Some l /\ In c l) ->
           get2 o c v = Some n0)) used st) as (R & E & HR) end; [| |eauto].
    - split; [apply shape_repeat|]. split; [intros v l c []|]. intros c v Hc Hv _.
      unfold get2, np_zeros. rewrite get_repeat by auto. cbn [bind]. apply get_repeat; auto.
    - intros done v rest o Eq (So & A & B).
      assert (Iv : In v used) by (rewrite Eq; apply in_or_app; right; left; auto).
      assert (Lv : v < nv) by (rewrite Forall_forall in Hused; auto).
      destruct (get_lt vconns v) as [l Hl]; [lia|]. rewrite Hl. cbn [bind].
      pose proof (Hconn _ _ Hl) as HB. rewrite Forall_forall in HB.
      match goal with |- context [foldM ?bd l ?st] =>
        destruct (foldM_ind bd (fun dn q => shape nc nv q /\
          (forall c, In c dn -> get2 q c v = Some (Fin (nth v cost 0 + qsum (col M nc v) - qat M c v)%Qc)) /\
          (forall c v', ~ (v' = v /\ In c dn) -> get2 q c v' = get2 o c v')) l st) as (q & Eq' & Sq & Q1 & Q2) end.
      + split; auto. split; [intros c []|]. auto.
      + intros dn c rs q El (Sq & Q1 & Q2).
        assert (Hc : c < nc) by (apply HB; rewrite El; apply in_or_app; right; left; auto).
        rewrite (get_mapFin _ v nv) by (rewrite ?map_length, ?seq_length; auto). cbn [bind].
        rewrite (get2_inj nc nv) by auto. cbn [bind]. rewrite (set2_lt nc nv) by auto.
        eexists; split; [reflexivity|]. split; [apply shape_upd2; auto|].
        assert (EV : nsub (Fin (nth v (map (fun a => (qsum (col M nc a) + (if existsb (Nat.eqb a) used then nth a cost 0 else 0))%Qc) (seq 0 nv)) 0%Qc))
                        (Fin (qat M c v)) = Fin (nth v cost 0 + qsum (col M nc v) - qat M c v)%Qc).
        { unfold nsub. cbn [nopp nadd]. f_equal.
          rewrite (nth_indep _ 0%Qc (qsum (col M nc 0) + (if existsb (Nat.eqb 0) used then nth 0 cost 0 else 0))%Qc)
            by (rewrite map_length, seq_length; auto).
          rewrite (map_nth (fun a => (qsum (col M nc a) + (if existsb (Nat.eqb a) used then nth a cost 0 else 0))%Qc)).
          rewrite seq_nth by auto. cbn [Nat.add].
          rewrite (proj2 (existsb_eqb_In v used) Iv). qlra. }
        rewrite EV. split.
        * intros c' Hc'. rewrite (get2_upd2 nc nv) by auto. rewrite Nat.eqb_refl, andb_true_r.
          destruct (Nat.eqb_spec c c') as [<-|Hn]; auto. apply Q1.
          apply in_app_or in Hc' as [Hc'|[Hc'|[]]]; auto; congruence.
        * intros c' v' Hn. rewrite (get2_upd2 nc nv) by auto.
          destruct (Nat.eqb_spec c c') as [<-|Hn1]; destruct (Nat.eqb_spec v v') as [<-|Hn2]; cbn [andb];
            try (apply Q2; intros [X1 X2]; apply Hn; split; auto; apply in_or_app; auto).
          exfalso. apply Hn. split; auto. apply in_or_app; right; left; auto.
      + rewrite Eq'. eexists; split; [reflexivity|]. split; auto. split.
        * intros v' l' c Hv' Hl' Hc'. destruct (Nat.eq_dec v' v) as [->|Hn].
          -- assert (l' = l) by congruence. subst. auto.
          -- rewrite Q2 by tauto. apply (A _ l'); auto. apply in_app_or in Hv' as [?|[?|[]]]; auto; congruence.
        * intros c v' Hc Hv' Hn. rewrite Q2.
          -- apply B; auto. intros [X1 X2]; apply Hn; split; auto. apply in_or_app; auto.
          -- intros [-> Hin]. apply Hn. split; [apply in_or_app; right; left; auto|eauto].
  Qed.
End PyVar.

Lemma variable_same nc nv M cost used vconns out :
  shape nc nv M -> shape nc nv out -> length cost = nv -> length vconns = nv ->
  Forall (fun v => v < nv) used ->
  (forall v l, get vconns v = Some l -> Forall (fun c => c < nc) l) ->
  (forall v l, get vconns v = Some l -> NoDup l) ->
  (forall v l c, In v used -> get vconns v = Some l -> c < nc -> ~ In c l -> qat M c v = 0%Qc) ->
  exists R, py_variable_update nv nc (inj M) used (map Fin cost) vconns = Some R /\
    variable_update nv (inj M) out used (map Fin cost) vconns = Some R /\ shape nc nv R.
Proof.
  intros HM HO Hcost Hvc Hused Hconn ND HZ.
  destruct (py_variable_ok nc nv M cost used vconns HM Hcost Hvc Hused Hconn) as (R & E & SR & G1 & G2).
  destruct (variable_update_ok nc nv M cost used vconns HM Hcost Hvc Hused Hconn out HO) as (R' & E' & SR' & G1' & G2').
  exists R. split; auto. split; auto. rewrite E'. f_equal. apply (shape_ext nc nv); auto.
  intros c v Hc Hv. destruct (get_lt vconns v) as [l Hl]; [lia|].
  destruct (in_dec Nat.eq_dec v used) as [Iv|Nv]; [|rewrite G2, G2'; auto; intros [X _]; auto].
  destruct (in_dec Nat.eq_dec c l) as [Ic|Nc].
  2:{ rewrite G2, G2'; auto; intros (_ & l' & X & Y); replace l' with l in Y by congruence; auto. }
  rewrite (G1 v l c) by auto. apply In_nth_error in Ic as [i Hi]. rewrite (G1' v l i c) by auto.
  do 2 f_equal. unfold col. rewrite (qsum_outside (fun p => qat M p v) nc l); eauto.
  2:{ intros c' Hc'. specialize (Hconn v l Hl). rewrite Forall_forall in Hconn. auto. }
  assert (Hi' : get (map (fun p => qat M p v) l) i = Some (qat M c v)).
  { rewrite get_map. unfold get. rewrite Hi. reflexivity. }
  rewrite (qsum_remove _ _ _ Hi'), remove_at_map. qlra.
Qed.

(** ** Output: graphical_model.py adds the messages of the clauses *)
Lemma extrinsic_variable_same nc nv M : shape nc nv M ->
  exists q, py_extrinsic_variable nv (inj M) = Some (map Fin q) /\
    ksat_update_extrinsic nv nc (inj M) (map Fin (repeat 0%Qc nv)) = Some (map Fin q).
Proof.
  intros HM. unfold py_extrinsic_variable. rewrite (sum_axis0_ok nc) by auto.
  destruct (ksat_extrinsic_ok nv nc M (repeat 0%Qc nv)) as (q & E & L & G); auto; [apply repeat_length|].
  eexists; split; [reflexivity|]. rewrite E. do 2 f_equal. apply (nth_ext _ _ 0%Qc 0%Qc).
  - rewrite map_length, seq_length; auto.
  - intros v Hv. rewrite G by lia. rewrite nth_repeat.
    rewrite (nth_indep _ 0%Qc (qsum (col M nc 0))) by (rewrite map_length, seq_length; lia).
    rewrite (map_nth (fun v => qsum (col M nc v))), seq_nth by lia. cbn [Nat.add]. qlra.
Qed.
