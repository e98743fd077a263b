(** * C86: the order of summation *)
From Verif Require Import Num Arr Spec ArrFacts SpecRound M_Float M_Test_EOP P_Float P_Kc_Post T_Float_Tsp T_Float_Ksat P_Tsp_Constraints.
Local Open Scope nat_scope.

(** the messages of the departments for one team *)
Definition column (bins : list (list num)) (i : nat) : list num := map (fun r => nth i r n0) bins.

Section Verdict.
Variables (rnd : Qc -> num) (n items : nat) (bins : list (list num)) (oric : list num).
Hypotheses (Sb : shape n items bins) (Lo : length oric = items).

Lemma library_ok : exists l, eop_library rnd items bins oric = Some l /\ length l = items /\
  forall i, i < items -> get l i = Some (fold_left (fun a x => fadd rnd x a) (column bins i) (nth i oric n0)).
Proof.
  unfold eop_library, extrinsic_output_team_f. rewrite copy_into_same by (now rewrite repeat_length). cbn [bind].
  apply (foldM_ind _ (fun done out => length out = items /\
    forall i, i < items -> get out i = Some (fold_left (fun a x => fadd rnd x a) (column done i) (nth i oric n0)))).
  - split; auto. intros i Hi. cbn. apply get_nth. lia.
  - intros done r rest out El [L H]. assert (Lr : length r = items).
    { destruct Sb as [_ F]. rewrite Forall_forall in F. apply F. rewrite El. apply in_elt. }
    rewrite transform2_same by lia. eexists. split; [reflexivity|]. split; [rewrite zip_with_length; lia|].
    intros i Hi. unfold column. rewrite map_app, fold_left_app. cbn [map fold_left].
    apply get_zip_with; [apply get_nth; lia|]. now apply H.
Qed.
Lemma plain_ok : exists d, eop_plain rnd n items bins = Some d /\ length d = items /\
  forall i, i < items -> get d i = Some (fold_left (fadd rnd) (column bins i) n0).
Proof.
  unfold eop_plain. pose proof Sb as [Ln _].
  destruct (for_up_ind 0 n (repeat n0 items) (fun out b => for_up 0 items out (fun out i =>
      x <- get out i ;; y <- get2 bins b i ;; set out i (fadd rnd x y)))
    (fun b out => length out = items /\ forall i, i < items -> get out i = Some (fold_left (fadd rnd) (column (firstn b bins) i) n0)))
    as (d & E & L & H); [lia| | |].
  - split; [apply repeat_length|]. intros i Hi. cbn. now apply get_repeat.
  - intros b out Hb [L H].
    destruct (get_lt bins b) as (r & Gr); [lia|]. assert (Lr : length r = items) by (eapply shape_row; eauto).
    assert (Ef : forall i, fold_left (fadd rnd) (column (firstn (b + 1) bins) i) n0 =
       fadd rnd (fold_left (fadd rnd) (column (firstn b bins) i) n0) (nth i r n0)).
    { intro i. replace (firstn (b + 1) bins) with (firstn b bins ++ [r]).
      - unfold column. rewrite map_app, fold_left_app. reflexivity.
      - rewrite <- (firstn_skipn b bins) at 2. rewrite firstn_app, firstn_firstn, firstn_length.
        replace (Nat.min (b + 1) b) with b by lia. f_equal. replace (b + 1 - Nat.min b (length bins)) with 1 by lia.
        apply nth_error_split in Gr as (l1 & l2 & -> & <-). rewrite skipn_app, skipn_all, Nat.sub_diag. reflexivity. }
    destruct (for_up_ind 0 items out (fun out i => x <- get out i ;; y <- get2 bins b i ;; set out i (fadd rnd x y))
      (fun k out' => length out' = items /\ forall i, i < items ->
         get out' i = Some (fold_left (fadd rnd) (column (firstn (if i <? k then b + 1 else b) bins) i) n0))) as (out' & E & L' & H'); [lia| | |].
    + split; auto.
    + intros k o Hk [Lk Hk']. rewrite (Hk' k) by lia. rewrite Nat.ltb_irrefl. cbn [bind].
      unfold get2. rewrite Gr. cbn [bind]. rewrite (get_nth r k n0) by lia. cbn [bind].
      rewrite set_lt by lia. eexists. split; [reflexivity|]. split; [now rewrite upd_length|].
      intros i Hi. rewrite get_upd by lia. destruct (Nat.eq_dec k i) as [<-|N].
      * rewrite Nat.eqb_refl. destruct (Nat.ltb_spec k (k + 1)); [|lia]. now rewrite Ef.
      * destruct (Nat.eqb_spec k i); [lia|]. rewrite Hk' by auto.
        destruct (Nat.ltb_spec i k), (Nat.ltb_spec i (k + 1)); auto; lia.
    + rewrite E. exists out'. split; auto. split; auto. intros i Hi. rewrite H' by auto. destruct (Nat.ltb_spec i items); auto. lia.
  - exists d. split; auto. split; auto. intros i Hi. rewrite H by auto. now rewrite firstn_all2 by lia.
Qed.

(** The check succeeds exactly when, for every team, the two orders of summation give numbers that
    compare equal. *)
Theorem C86_verdict : exists b, eop_check rnd n items bins oric = Some b /\
  (b = true <-> forall i, i < items ->
     neqb (fadd rnd (fold_left (fadd rnd) (column bins i) n0) (nth i oric n0))
          (fold_left (fun a x => fadd rnd x a) (column bins i) (nth i oric n0)) = true).
Proof.
  unfold eop_check. destruct library_ok as (l & -> & Ll & Hl). cbn [bind]. destruct plain_ok as (d & -> & Ld & Hd). cbn [bind].
  set (same := fun i => neqb (fadd rnd (fold_left (fadd rnd) (column bins i) n0) (nth i oric n0))
          (fold_left (fun a x => fadd rnd x a) (column bins i) (nth i oric n0))).
  unfold eop_compare.
  match goal with |- context [for_up 0 items (d, true) ?f] => set (step := f) end.
  destruct (for_up_ind 0 items (d, true) step
    (fun k st => (snd st = true <-> forall i, i < k -> same i = true) /\
       (snd st = true -> length (fst st) = items /\ forall i, k <= i < items -> get (fst st) i = get d i))) as ([d' b] & E & H & _); [lia| | |].
  - cbn. split; [|auto]. split; auto. intros _ i Hi. lia.
  - intros k [d1 b] Hk [H1 H2]. unfold step. cbn [fst snd] in *. destruct b.
    + destruct (H2 eq_refl) as [L1 G1]. rewrite G1, Hd by lia. cbn [bind]. rewrite (get_nth oric k n0) by lia. cbn [bind].
      rewrite set_lt by lia. cbn [bind]. rewrite Hl by lia. cbn [bind]. eexists. split; [reflexivity|]. cbn [fst snd]. fold (same k). split.
      * split.
        -- intros E i Hi. destruct (Nat.eq_dec i k) as [->|]; auto. apply H1; auto. lia.
        -- intro A. apply A. lia.
      * intros _. rewrite upd_length. split; auto. intros i Hi. rewrite get_upd_ne by lia. apply G1. lia.
    + eexists. split; [reflexivity|]. cbn [fst snd]. split; [|discriminate]. split; [discriminate|].
      intro A. apply H1. intros i Hi. apply A. lia.
  - rewrite E. cbn [bind]. exists b. split; auto.
Qed.
End Verdict.

(** ** When nothing is rounded *)
Lemma sums_exact rnd (ok : Qc -> Prop) (l : list Qc) : (forall q, ok q -> rnd q = Fin q) ->
  forall a, (forall k, k <= length l -> ok (a + qsum (firstn k l))%Qc) ->
  fold_left (fadd rnd) (map Fin l) (Fin a) = Fin (a + qsum l)%Qc /\
  fold_left (fun a x => fadd rnd x a) (map Fin l) (Fin a) = Fin (a + qsum l)%Qc.
Proof.
  intro Hok. induction l as [|x l IH]; intros a H; cbn [map fold_left].
  - split; f_equal; unfold qsum; cbn; ring.
  - assert (O1 : ok (a + x)%Qc).
    { replace (a + x)%Qc with (a + qsum (firstn 1 (x :: l)))%Qc by (unfold qsum; cbn; ring). apply H. cbn. lia. }
    cbn [fadd]. rewrite (Qcplus_comm x a), (Hok _ O1).
    replace (a + qsum (x :: l))%Qc with ((a + x) + qsum l)%Qc by (unfold qsum; cbn [fold_right]; ring).
    apply IH. intros k Hk. replace ((a + x) + qsum (firstn k l))%Qc with (a + qsum (firstn (S k) (x :: l)))%Qc by (unfold qsum; cbn [firstn fold_right]; ring).
    apply H. cbn. lia.
Qed.

Lemma column_inj (M : list (list Qc)) i : column (inj M) i = map Fin (map (fun r => nth i r 0%Qc) M).
Proof. unfold column, inj. rewrite !map_map. apply map_ext. intro r. apply (map_nth Fin). Qed.
Lemma check_exact rnd (ok : Qc -> Prop) n items (M : list (list Qc)) (oric : list Qc) :
  (forall q, ok q -> rnd q = Fin q) -> shape n items M -> length oric = items ->
  (forall i k, i < items -> k <= n ->
     ok (qsum (firstn k (map (fun r => nth i r 0%Qc) M))) /\
     ok (nth i oric 0 + qsum (firstn k (map (fun r => nth i r 0%Qc) M)))%Qc) ->
  eop_check rnd n items (inj M) (map Fin oric) = Some true.
Proof.
  intros Hok SM Lo H. destruct (C86_verdict rnd n items (inj M) (map Fin oric)) as (b & -> & Hb).
  - destruct SM as [L F]. split; [unfold inj; now rewrite map_length|]. unfold inj. apply Forall_map. eapply Forall_impl; [|exact F].
    intros r Hr. now rewrite map_length.
  - now rewrite map_length.
  - f_equal. apply Hb. intros i Hi. rewrite column_inj. change n0 with (Fin 0). rewrite map_nth.
    assert (Lc : length (map (fun r => nth i r 0%Qc) M) = n) by (rewrite map_length; apply SM).
    destruct (sums_exact rnd ok (map (fun r => nth i r 0%Qc) M) Hok 0%Qc) as [-> _].
    { intros k Hk. rewrite Qcplus_0_l. apply H; lia. }
    destruct (sums_exact rnd ok (map (fun r => nth i r 0%Qc) M) Hok (nth i oric 0%Qc)) as [_ ->].
    { intros k Hk. apply H; lia. }
    cbn [fadd]. rewrite Qcplus_0_l, Qcplus_comm. rewrite Hok.
    + apply neqb_eq. split; [reflexivity|discriminate].
    + destruct (H i n Hi) as [_ K]; [lia|]. rewrite firstn_all2 in K by lia. exact K.
Qed.

(** In exact arithmetic the check always succeeds. *)
Theorem C86_exact : forall n items (M : list (list Qc)) (oric : list Qc),
  shape n items M -> length oric = items -> eop_check Fin n items (inj M) (map Fin oric) = Some true.
Proof. intros n items M oric SM Lo. apply (check_exact Fin (fun _ => True)); auto. Qed.

(** In floating-point arithmetic it succeeds when all numbers are multiples of one power of two and
    not too large. *)
Theorem C86_multiples : forall prec emin emax rnd e C n items (M : list (list Z)) (oric : list Z),
  keeps (binary prec emin emax) rnd -> (emin <= e <= emax)%Z ->
  shape n items M -> length oric = items -> at_most C M -> Forall (fun z => (Z.abs z <= C)%Z) oric ->
  ((Z.of_nat n + 1) * C < 2 ^ prec)%Z ->
  eop_check rnd n items (grid e M) (grid1 e oric) = Some true.
Proof.
  intros prec emin emax rnd e C n items M oric Hr He SM Lo HM Ho HC.
  set (v := fun z => (zq z * pow2 e)%Qc).
  replace (grid e M) with (inj (map (map v) M)) by (unfold inj, grid; rewrite map_map; apply map_ext; intro r; now rewrite map_map).
  replace (grid1 e oric) with (map Fin (map v oric)) by (unfold grid1; now rewrite map_map).
  assert (v0 : v 0%Z = 0%Qc) by (unfold v; change (zq 0) with 0%Qc; ring).
  assert (vplus : forall x y, (v x + v y)%Qc = v (x + y)%Z) by (intros; unfold v; rewrite zq_add; ring).
  apply (check_exact rnd (fun q => exists z, (Z.abs z <= (Z.of_nat n + 1) * C)%Z /\ q = v z)).
  - intros q (z & Hz & ->). apply (exact_binary prec emin emax rnd e Hr He). lia.
  - destruct SM as [L F]. split; [now rewrite map_length|]. apply Forall_map. eapply Forall_impl; [|exact F]. intros r Hr'. now rewrite map_length.
  - now rewrite map_length.
  - intros i k Hi Hk.
    assert (Ho' : (Z.abs (nth i oric 0) <= C)%Z).
    { rewrite Forall_forall in Ho. apply Ho, nth_In. lia. }
    assert (G : forall l, Forall (fun r => (Z.abs (nth i r 0) <= C)%Z) l ->
      exists z, (Z.abs z <= Z.of_nat (length l) * C)%Z /\ qsum (map (fun r => nth i r 0%Qc) (map (map v) l)) = v z).
    { induction 1 as [|r l Hr' Hl IH]; [exists 0%Z; split; [cbn; lia|now rewrite v0]|].
      destruct IH as (z & Hz & E). exists (nth i r 0 + z)%Z. split; [cbn [length]; lia|].
      cbn [map]. unfold qsum in *. cbn [fold_right]. rewrite E, <- vplus. f_equal. rewrite <- v0. apply map_nth. }
    rewrite firstn_map, firstn_map.
    destruct (G (firstn k M)) as (z & Hz & E).
    { apply Forall_forall. intros r I. assert (I' : In r M) by (rewrite <- (firstn_skipn k M); apply in_or_app; now left).
      unfold at_most in HM. rewrite Forall_forall in HM. specialize (HM r I'). rewrite Forall_forall in HM. apply HM, nth_In.
      destruct SM as [_ F]. rewrite Forall_forall in F. rewrite (F r I'). exact Hi. }
    rewrite firstn_length in Hz. rewrite E. split; [exists z; split; [nia|reflexivity]|].
    exists (nth i oric 0 + z)%Z. split; [nia|]. rewrite <- vplus. f_equal. rewrite <- v0. apply map_nth.
Qed.

(** Full statement: the check always succeeds.  False for [double]: with two departments and numbers
    between 10 and 300, as the program draws them, it fails. *)
Definition eop_bins : list (list Qc) := [[zq (7036874417766403) * pow2 (-46)]; [zq (6755399441055756) * pow2 (-49)]]%Qc.
Definition eop_oric : list Qc := [zq (5629499534213127) * pow2 (-49)]%Qc.
Theorem C86_refuted :
  Forall (fun q => (zq 10 <= q)%Qc /\ (q <= zq 300)%Qc /\ double q) (concat eop_bins ++ eop_oric) /\
  eop_check ieee 2 1 (inj eop_bins) (map Fin eop_oric) = Some false.
Proof.
  split; [|vm_compute; reflexivity]. unfold eop_bins, eop_oric. cbn [concat app].
  repeat (constructor; [split; [vm_compute; discriminate|split; [vm_compute; discriminate|eexists; eexists; split; [|split; [|reflexivity]]; lia]]|]).
  constructor.
Qed.

(** three departments, two teams *)
Example C86_example :
  eop_check ieee 3 2 (grid (-10) [[10240; -20481]; [123456; 7]; [-3; 307200]]%Z) (grid1 (-10) [5; -6]%Z) = Some true /\
  at_most 307200 [[10240; -20481]; [123456; 7]; [-3; 307200]]%Z /\ ((Z.of_nat 3 + 1) * 307200 < 2 ^ 53)%Z.
Proof. split; [vm_compute; reflexivity|]. split; [repeat constructor; cbn; lia|]. cbn. lia. Qed.

Print Assumptions C86_verdict.
Print Assumptions C86_exact.
Print Assumptions C86_multiples.
Print Assumptions C86_refuted.
