(** * Proofs about the data exchanged between Python and C++. *)
From Verif Require Import Num NumFacts Arr ArrFacts MinSumFacts Spec M_InOut
  P_Tsp_Constraints P_Kc_Trellis P_Ksat P_Equality.
Local Open Scope nat_scope.

Lemma shape_concat_length {A} n k (M : list (list A)) : shape n k M -> length (concat M) = n * k.
Proof.
  intros [L F]. revert n L; induction M as [|r M IH]; intros n L; cbn in *; subst; auto.
  inversion F; subst. rewrite app_length, (IH ltac:(auto) (length M)) by auto. lia.
Qed.
Lemma concat_slice {A} n k (M : list (list A)) i : shape n k M -> i < n ->
  slice (concat M) (k * i) (k * (i + 1)) = Some (nth i M []).
Proof.
  intros S Hi. unfold slice. rewrite (shape_concat_length n k) by auto.
  destruct (Nat.leb_spec (k * i) (k * (i + 1))); [|nia].
  destruct (Nat.leb_spec (k * (i + 1)) (n * k)); [|nia]. cbn [andb]. f_equal.
  replace (k * (i + 1) - k * i) with k by nia. destruct S as [L F].
  revert n i L Hi H H0; induction M as [|r M IH]; intros n i L Hi H H0; cbn in L; [lia|].
  inversion F as [|? ? Hr F']; subst. destruct i as [|i].
  - rewrite Nat.mul_0_r. cbn [skipn concat nth]. rewrite firstn_app, firstn_all, Nat.sub_diag. cbn. apply app_nil_r.
  - cbn [nth concat]. rewrite skipn_app. rewrite skipn_all2 by nia. cbn [app].
    replace (length r * Datatypes.S i - length r) with (length r * i) by nia. apply (IH F' (length M)); auto; try nia; lia.
Qed.
Lemma mapM_ext {A B} (f g : A -> option B) l : (forall a, In a l -> f a = g a) -> mapM f l = mapM g l.
Proof.
  induction l as [|a l IH]; intros H; cbn; auto. rewrite (H a) by (left; auto). rewrite IH; auto. intros; apply H; right; auto.
Qed.
Lemma map_nth_seq {A} (l : list A) d : map (fun i => nth i l d) (seq 0 (length l)) = l.
Proof.
  apply list_ext_get; [rewrite map_length, seq_length; auto|]. intros i Hi.
  rewrite map_length, seq_length in Hi. rewrite get_map, get_seq by auto. cbn.
  symmetry. apply get_nth; auto.
Qed.
Lemma read_rows_ok {A} (d : A) n k M : shape n k M -> read_rows d n k (concat M) = Some M.
Proof.
  intros S. unfold read_rows.
  rewrite (mapM_ext _ (fun i => Some (nth i M []))).
  - rewrite (mapM_Some _ (fun i => nth i M [])) by auto. destruct S as [<- _]. f_equal. apply map_nth_seq.
  - intros i Hi. apply in_seq in Hi. rewrite (concat_slice n k) by (auto; lia). cbn [bind].
    apply copy_into_same. rewrite repeat_length. destruct S as [L F]. rewrite Forall_forall in F.
    apply F, nth_In. lia.
Qed.
Lemma slice_all {A} (l : list A) n : length l = n -> slice l 0 n = Some l.
Proof.
  intros <-. unfold slice. rewrite Nat.leb_refl. cbn. rewrite Nat.sub_0_r, firstn_all. auto.
Qed.

Lemma list_max_le' l x : In x l -> x <= list_max l.
Proof. intros H. pose proof (proj1 (list_max_le l (list_max l)) (le_n _)) as F. rewrite Forall_forall in F. auto. Qed.
Lemma py_pad_shape nz : shape (length nz) (list_max (map (@length nat) nz)) (py_pad nz).
Proof.
  unfold py_pad. split; [apply map_length|]. apply Forall_map, Forall_forall. intros r Hr.
  rewrite app_length, repeat_length.
  pose proof (list_max_le' (map (@length nat) nz) (length r) (in_map _ _ _ Hr)). lia.
Qed.
Lemma concat_slice_part {A} n k (M : list (list A)) i m : shape n k M -> i < n -> m <= k ->
  slice (concat M) (k * i) (m + k * i) = Some (firstn m (nth i M [])).
Proof.
  intros S Hi Hm. pose proof (concat_slice n k M i S Hi) as H. unfold slice in *.
  rewrite (shape_concat_length n k) in * by auto.
  destruct (Nat.leb_spec (k * i) (k * (i + 1))); [|nia].
  destruct (Nat.leb_spec (k * (i + 1)) (n * k)); [|nia].
  destruct (Nat.leb_spec (k * i) (m + k * i)); [|nia].
  destruct (Nat.leb_spec (m + k * i) (n * k)); [|nia]. cbn [andb] in *. injection H as H. f_equal.
  rewrite <- H, firstn_firstn. f_equal. nia.
Qed.
Lemma read_padded_ok nz :
  read_padded (length nz) (list_max (map (@length nat) nz)) (map (@length nat) nz) (concat (py_pad nz)) = Some nz.
Proof.
  unfold read_padded. rewrite (mapM_ext _ (fun d => Some (nth d nz []))).
  - rewrite (mapM_Some _ (fun i => nth i nz [])) by auto. f_equal. apply map_nth_seq.
  - intros d Hd. apply in_seq in Hd. rewrite get_map, (get_nth nz d []) by lia. cbn [option_map bind].
    pose proof (py_pad_shape nz) as S.
    assert (Hin : In (nth d nz []) nz) by (apply nth_In; lia).
    pose proof (list_max_le' _ _ (in_map (@length nat) _ _ Hin)) as Hmax.
    rewrite (concat_slice_part (length nz) (list_max (map (@length nat) nz))) by (auto; lia). cbn [bind].
    assert (E : nth d (py_pad nz) [] = nth d nz [] ++ repeat 0 (list_max (map (@length nat) nz) - length (nth d nz []))).
    { unfold py_pad. set (f := fun r : list nat => r ++ repeat 0 (list_max (map (@length nat) nz) - length r)).
      rewrite (nth_indep (map f nz) [] (f [])) by (rewrite map_length; lia). rewrite (map_nth f). reflexivity. }
    rewrite E, firstn_app, firstn_all, Nat.sub_diag. cbn [firstn]. rewrite app_nil_r.
    apply copy_into_same. rewrite repeat_length. auto.
Qed.

(** variable connections of the K-SAT model *)
Lemma read_varconx_ok nv used (vc : list (list nat)) :
  length vc = nv -> (forall j, j < nv -> ~ In j used -> nth j vc [] = []) ->
  read_varconx nv used (map (@length nat) vc) (concat vc) = Some vc.
Proof.
  intros L Hun. unfold read_varconx.
  match goal with |- context [for_up 0 nv ?st0 ?bd] =>
    destruct (for_up_ind 0 nv st0 bd (fun i st => fst st = firstn i vc /\ snd st = length (concat (firstn i vc))))
      as ([rows old] & E & H1 & H2) end.
  - lia.
  - auto.
  - intros j [rows old] Hj [H1 H2]. cbn [fst snd] in *. subst rows old.
    pose proof (get_nth vc j [] ltac:(lia)) as Gj.
    assert (Efs : firstn (S j) vc = firstn j vc ++ [nth j vc []]).
    { rewrite <- Nat.add_1_r. apply firstn_succ. auto. }
    destruct (existsb (Nat.eqb j) used) eqn:Ex.
    + rewrite get_map, Gj. cbn [option_map bind].
      assert (Ec : concat vc = concat (firstn j vc) ++ nth j vc [] ++ concat (skipn (S j) vc)).
      { rewrite <- (firstn_skipn (S j) vc) at 1. rewrite concat_app, Efs, concat_app. cbn. rewrite app_nil_r, app_assoc. auto. }
      assert (Es : slice (concat vc) (length (concat (firstn j vc))) (length (concat (firstn j vc)) + length (nth j vc []))
                   = Some (nth j vc [])).
      { unfold slice. assert (Lc := f_equal (@length nat) Ec). rewrite !app_length in Lc. rewrite Lc.
        destruct (Nat.leb_spec (length (concat (firstn j vc))) (length (concat (firstn j vc)) + length (nth j vc []))); [|lia].
        match goal with |- context [?a <=? ?b] => destruct (Nat.leb_spec a b); [|lia] end. cbn [andb]. f_equal.
        replace (length (concat (firstn j vc)) + length (nth j vc []) - length (concat (firstn j vc))) with (length (nth j vc [])) by lia.
        rewrite Ec at 1. rewrite skipn_app, skipn_all, Nat.sub_diag. cbn [app skipn].
        rewrite firstn_app, firstn_all, Nat.sub_diag. cbn. apply app_nil_r. }
      rewrite Es. cbn [bind]. rewrite copy_into_same by (rewrite repeat_length; auto). cbn [bind].
      eexists; split; [reflexivity|]. cbn [fst snd]. rewrite Nat.add_1_r, Efs. split; auto.
      rewrite concat_app, app_length. cbn. rewrite app_nil_r. auto.
    + eexists; split; [reflexivity|]. cbn [fst snd]. rewrite Nat.add_1_r, Efs.
      rewrite Hun; [|lia|]; [split; auto; rewrite concat_app, app_length; cbn; lia|].
      intros Hin. assert (existsb (Nat.eqb j) used = true); [|congruence].
      apply existsb_exists. exists j. split; auto. apply Nat.eqb_refl.
  - rewrite E. cbn [bind fst] in *. subst rows. f_equal. apply firstn_all2. lia.
Qed.

(** ** read back *)
Lemma copy_into_firstn {A} (v b b' : list A) : copy_into v b = Some b' -> firstn (length v) b' = v.
Proof.
  unfold copy_into. destruct (length v <=? length b); [|discriminate]. intros H; injection H as <-.
  rewrite firstn_app, firstn_all, Nat.sub_diag. cbn. apply app_nil_r.
Qed.
Lemma pairs_of_flat es : pairs_of (flat_edges es) = Some es.
Proof.
  induction es as [|[a b] es IH]; cbn; auto. unfold flat_edges in IH. rewrite IH. reflexivity.
Qed.
Lemma split_by_sizes (paths : list (list nat)) :
  map (fun i => let lo := list_sum (firstn i (map (@length nat) paths)) in
                let hi := list_sum (firstn (i + 1) (map (@length nat) paths)) in
                firstn (hi - lo) (skipn lo (concat paths))) (seq 0 (length paths)) = paths.
Proof.
  induction paths as [|p paths IH]; auto.
  cbn [length seq map]. f_equal.
  - cbn. rewrite Nat.add_0_r, Nat.sub_0_r, firstn_app, firstn_all, Nat.sub_diag. cbn. apply app_nil_r.
  - etransitivity; [|exact IH]. rewrite <- seq_shift, map_map. apply map_ext. intros i. cbn zeta.
    cbn [firstn Nat.add]. unfold list_sum in *. cbn [map firstn fold_right concat].
    rewrite skipn_app. rewrite skipn_all2 by lia. cbn [app]. f_equal; [lia|]. f_equal. lia.
Qed.
Lemma list_sum_length (paths : list (list nat)) : list_sum (map (@length nat) paths) = length (concat paths).
Proof. induction paths as [|p l IH]; cbn; auto. rewrite app_length. unfold list_sum in IH. rewrite IH. auto. Qed.
Lemma filter_all {A} (f : A -> bool) l : (forall a, In a l -> f a = true) -> filter f l = l.
Proof.
  induction l as [|a l IH]; intros H; cbn; auto. rewrite (H a) by (left; auto). f_equal. apply IH. intros; apply H; right; auto.
Qed.
Lemma py_subtours_ok paths k bp bp' m : Forall (fun p => p <> []) paths -> paths <> [] ->
  copy_into (concat paths) bp = Some bp' ->
  copy_into (map (@length nat) paths) (repeat 0 m) = Some k ->
  py_subtours k bp' = Some (map (fun p => p ++ firstn 1 p) paths).
Proof.
  intros HF Hne HB HK. rewrite Forall_forall in HF. unfold py_subtours.
  assert (Ek : filter (fun x => negb (x =? 0)) k = map (@length nat) paths).
  { unfold copy_into in HK. destruct (_ <=? _); [|discriminate]. injection HK as <-. rewrite filter_app.
    rewrite filter_all.
    - assert (forall l, Forall (fun x => x = 0) l -> filter (fun x => negb (x =? 0)) l = []) as F0.
      { induction l as [|x l IH]; intros F; cbn; auto. inversion F; subst. cbn. auto. }
      rewrite F0; [apply app_nil_r|]. apply Forall_forall. intros x Hx.
      assert (Hin : In x (repeat 0 m)).
      { rewrite <- (firstn_skipn (length (map (@length nat) paths)) (repeat 0 m)). apply in_or_app; auto. }
      apply repeat_spec in Hin. auto.
    - intros x Hx. apply in_map_iff in Hx as (p & <- & Hp). apply HF in Hp. destruct p; [congruence|reflexivity]. }
  rewrite Ek. rewrite map_length. destruct (Nat.eqb_spec (length paths) 0) as [E0|_].
  { destruct paths; [congruence|discriminate]. }
  f_equal. rewrite list_sum_length, (copy_into_firstn _ _ _ HB), split_by_sizes.
  rewrite filter_all; auto. intros p Hp. apply HF in Hp. destruct p; [congruence|reflexivity].
Qed.

(** ** outputs *)
Lemma add_rows_ok n S rows (o : list Qc) : shape S n rows -> length o = n ->
  exists q, foldM (fun out row => transform2 nadd row out out) (inj rows) (map Fin o) = Some (map Fin q) /\
    length q = n /\
    forall e, e < n -> nth e q 0%Qc = (nth e o 0 + qsum (map (fun s => qat rows s e) (seq 0 S)))%Qc.
Proof.
  revert S o; induction rows as [|r rows IH]; intros S o [L F] Ho; cbn in L; subst S.
  - exists o. split; [reflexivity|]. split; auto. intros e He. cbn. ring.
  - inversion F as [|? ? Hr F']; subst. cbn [inj map foldM]. rewrite transform2_same by (rewrite !map_length; lia).
    rewrite zip_with_Fin. cbn [bind].
    destruct (IH (length rows) (qplus r o)) as (q & E & Lq & H); [split; auto|rewrite qplus_length; lia|].
    exists q. split; [exact E|]. split; auto. intros e He. rewrite H, nth_qplus by lia.
    cbn [seq length map]. rewrite qsum_cons, <- seq_shift, map_map.
    change (qat (r :: rows) 0 e) with (nth e r 0%Qc).
    assert (Em : map (fun s => qat (r :: rows) (Datatypes.S s) e) (seq 0 (length rows)) = map (fun s => qat rows s e) (seq 0 (length rows)))
      by (apply map_ext; reflexivity).
    rewrite Em. ring.
Qed.
Lemma extrinsic_output_team_ok D T X o out : shape D T X -> length o = T -> length out = T ->
  exists q, extrinsic_output_team (inj X) (map Fin o) out = Some (map Fin q) /\ length q = T /\
    forall t, t < T -> nth t q 0%Qc = (nth t o 0 + qsum (col X D t))%Qc.
Proof.
  intros HX Ho HO. unfold extrinsic_output_team. rewrite copy_into_same by (rewrite map_length; lia). cbn [bind].
  apply add_rows_ok; auto.
Qed.

Lemma fold_left_Fin l a : fold_left nadd (map Fin l) (Fin a) = Fin (a + qsum l)%Qc.
Proof.
  revert a; induction l as [|x l IH]; intros a; cbn [map fold_left].
  - f_equal. cbn. ring.
  - cbn [nadd]. rewrite IH, qsum_cons. f_equal. ring.
Qed.
Lemma accumulate_ok l : accumulate (map Fin l) = Fin (qsum l).
Proof. unfold accumulate, n0. rewrite fold_left_Fin. f_equal. ring. Qed.
Lemma extrinsic_relaxed_ok n k M out : shape n k M -> length out = n ->
  exists q, extrinsic_relaxed (inj M) out = Some (map Fin q) /\ length q = n /\
    forall e, e < n -> nth e q 0%Qc = qsum (nth e M []).
Proof.
  intros HM HO. unfold extrinsic_relaxed. replace (length (inj M)) with n by (unfold inj; rewrite map_length; destruct HM; auto).
  match goal with |- context [for_up 0 n ?st0 ?bd] =>
    destruct (for_up_ind 0 n st0 bd (fun i o => length o = n /\
      forall e, e < i -> get o e = Some (Fin (qsum (nth e M []))))) as (o & E & L & H) end.
  - lia.
  - split; auto. intros; lia.
  - intros e o He [L H]. rewrite (get_inj n k) by (auto; lia). cbn [bind]. rewrite accumulate_ok.
    rewrite set_lt by lia. eexists; split; [reflexivity|]. rewrite upd_length. split; auto.
    intros e' He'. rewrite get_upd by lia. destruct (Nat.eqb_spec e e') as [<-|Hn]; auto. apply H; lia.
  - destruct (fin_vec n o L) as (q & Lq & ->). { intros i Hi. eexists; apply H; auto. }
    exists q. split; [exact E|]. split; auto. intros e He. specialize (H e He). rewrite (get_mapFin _ _ n) in H by auto. congruence.
Qed.
Lemma extrinsic_augmented_ok n k S M Sub out : shape n k M -> shape S n Sub -> length out = n ->
  exists q, extrinsic_augmented (inj M) (inj Sub) out = Some (map Fin q) /\ length q = n /\
    forall e, e < n -> nth e q 0%Qc = (qsum (nth e M []) + qsum (col Sub S e))%Qc.
Proof.
  intros HM HS HO. unfold extrinsic_augmented.
  destruct (extrinsic_relaxed_ok n k M out HM HO) as (q & E & L & H). rewrite E. cbn [bind].
  destruct (add_rows_ok n S Sub q HS L) as (q2 & E2 & L2 & H2). exists q2. split; [exact E2|]. split; auto.
  intros e He. rewrite H2, H by auto. reflexivity.
Qed.
Lemma intrinsic_output_ok n x c out : length x = n -> length c = n -> length out = n ->
  exists q, intrinsic_output (map Fin x) (map Fin c) out = Some (map Fin q) /\ length q = n /\
    forall e, e < n -> nth e q 0%Qc = (nth e x 0 + nth e c 0)%Qc.
Proof.
  intros Hx Hc HO. unfold intrinsic_output. rewrite transform2_same by (rewrite !map_length; lia).
  rewrite zip_with_Fin. exists (qplus x c). split; auto. split; [rewrite qplus_length; lia|].
  intros e He. apply nth_qplus; lia.
Qed.

Lemma intrinsic_out_mwm_ok P T A B R out : shape P T A -> shape P T B -> shape P T R ->
  length out = P * T ->
  exists q, intrinsic_out_mwm T (inj A) (inj B) (inj R) out = Some (map Fin q) /\ length q = P * T /\
    forall p t, p < P -> t < T -> nth (p * T + t) q 0%Qc = (qat A p t + qat B p t + qat R p t)%Qc.
Proof.
  intros HA HB HR HO. unfold intrinsic_out_mwm.
  replace (length (inj R)) with P by (unfold inj; rewrite map_length; destruct HR; auto).
  match goal with |- context [for_up 0 P ?st0 ?bd] =>
    destruct (for_up_ind 0 P st0 bd (fun i o => length o = P * T /\
      forall p t, p < i -> t < T -> get o (p * T + t) = Some (Fin (qat A p t + qat B p t + qat R p t)%Qc))) as (o & E & L & H) end.
  - lia.
  - split; auto. intros; lia.
  - intros p o Hp [L H]. rewrite (get_inj P T) by (auto; lia). cbn [bind].
    rewrite map_length, (shape_nth P T) by (auto; lia).
    match goal with |- context [for_up 0 T ?st0 ?bd] =>
      destruct (for_up_ind 0 T st0 bd (fun i o' => length o' = P * T /\
        (forall p' t, p' < p -> t < T -> get o' (p' * T + t) = get o (p' * T + t)) /\
        (forall t, t < i -> get o' (p * T + t) = Some (Fin (qat A p t + qat B p t + qat R p t)%Qc)))) as (o' & E' & L' & H1 & H2) end.
    + lia.
    + split; auto. split; auto. intros; lia.
    + intros t o' Ht (L' & H1 & H2). rewrite !(get2_inj P T) by (auto; lia). cbn [bind].
      rewrite (get_mapFin _ _ T) by (try eapply shape_nth; eauto; lia). cbn [bind nadd].
      replace (p + t + p * (T - 1)) with (p * T + t) by nia.
      rewrite set_lt by (rewrite L'; nia). eexists; split; [reflexivity|]. rewrite upd_length. split; auto. split.
      * intros p' t' Hp' Ht'. rewrite get_upd by (rewrite L'; nia). destruct (Nat.eqb_spec (p * T + t) (p' * T + t')) as [X|X]; [nia|]. auto.
      * intros t' Ht'. rewrite get_upd by (rewrite L'; nia). destruct (Nat.eqb_spec (p * T + t) (p * T + t')) as [X|X].
        -- assert (t' = t) by lia. subst. reflexivity.
        -- apply H2; lia.
    + exists o'. split; [exact E'|]. split; auto. intros p' t Hp' Ht.
      destruct (Nat.eq_dec p' p) as [->|Hn]; auto. rewrite H1 by lia. apply H; lia.
  - destruct (fin_vec (P * T) o L) as (q & Lq & ->).
    { intros i Hi. assert (T <> 0) by nia. pose proof (Nat.div_mod i T ltac:(auto)) as X.
      pose proof (Nat.mod_upper_bound i T ltac:(auto)). assert (i / T < P) by (apply Nat.div_lt_upper_bound; lia).
      rewrite X. rewrite (Nat.mul_comm T). eexists; apply H; auto. }
    exists q. split; [exact E|]. split; auto. intros p t Hp Ht. specialize (H p t Hp Ht).
    rewrite (get_mapFin _ _ (P * T)) in H by (auto; nia). congruence.
Qed.

Lemma ksat_extrinsic_ok nv nc M (o : list Qc) : shape nc nv M -> length o = nv ->
  exists q, ksat_update_extrinsic nv nc (inj M) (map Fin o) = Some (map Fin q) /\ length q = nv /\
    forall v, v < nv -> nth v q 0%Qc = (nth v o 0 + qsum (col M nc v))%Qc.
Proof.
  intros HM Ho. unfold ksat_update_extrinsic.
  match goal with |- context [for_up 0 nv ?st0 ?bd] =>
    destruct (for_up_ind 0 nv st0 bd (fun i r => exists q, r = map Fin q /\ length q = nv /\
      (forall v, v < i -> nth v q 0%Qc = (nth v o 0 + qsum (col M nc v))%Qc) /\
      (forall v, i <= v -> nth v q 0%Qc = nth v o 0%Qc))) as (r & E & q & -> & L & H & _) end.
  - lia.
  - exists o. split; auto. split; auto. split; [intros; lia|auto].
  - intros v r Hv (q & -> & L & H1 & H2).
    match goal with |- context [for_up 0 nc ?st0 ?bd] =>
      destruct (for_up_ind 0 nc st0 bd (fun i r => exists q', r = map Fin q' /\ length q' = nv /\
        nth v q' 0%Qc = (nth v o 0 + qsum (map (fun c => qat M c v) (seq 0 i)))%Qc /\
        (forall v', v' <> v -> nth v' q' 0%Qc = nth v' q 0%Qc))) as (r & E & q' & -> & L' & H3 & H4) end.
    + lia.
    + exists q. split; auto. split; auto. split; auto. rewrite H2 by lia. cbn. ring.
    + intros c r Hc (q' & -> & L' & H3 & H4). rewrite (get_mapFin _ _ nv) by (auto; lia). cbn [bind].
      rewrite (get2_inj nc nv) by (auto; lia). cbn [bind nadd]. rewrite set_lt by (rewrite map_length; lia).
      eexists; split; [reflexivity|]. exists (upd q' v (nth v q' 0 + qat M c v)%Qc).
      assert (Eu : forall l i x, upd (map Fin l) i (Fin x) = map Fin (upd l i x)).
      { induction l as [|y l IH]; intros [|i] x; cbn; auto. f_equal. auto. }
      rewrite Eu. split; auto. rewrite upd_length. split; auto. 
      assert (En : forall i, nth i (upd q' v (nth v q' 0 + qat M c v)%Qc) 0%Qc = if v =? i then (nth v q' 0 + qat M c v)%Qc else nth i q' 0%Qc).
      { intros i. destruct (Nat.lt_ge_cases i nv).
        - pose proof (get_upd q' v i (nth v q' 0 + qat M c v)%Qc ltac:(lia)) as G.
          rewrite (get_nth _ i 0%Qc) in G by (rewrite upd_length; lia). rewrite (get_nth q' i 0%Qc) in G by lia.
          destruct (v =? i); congruence.
        - rewrite !(nth_overflow _ 0%Qc) by (rewrite ?upd_length; lia). destruct (Nat.eqb_spec v i); [lia|].
          rewrite nth_overflow by lia. auto. }
      split.
      * rewrite En, Nat.eqb_refl, H3, seq_app, map_app, qsum_app. cbn. ring.
      * intros v' Hn. rewrite En. destruct (Nat.eqb_spec v v'); [congruence|]. auto.
    + exists (map Fin q'). split; [exact E|]. exists q'. split; auto. split; auto. split.
      * intros v' Hv'. destruct (Nat.eq_dec v' v) as [->|Hn]; [exact H3|]. rewrite H4 by auto. apply H1; lia.
      * intros v' Hv'. rewrite H4 by lia. apply H2; lia.
  - exists q. split; [exact E|]. auto.
Qed.
