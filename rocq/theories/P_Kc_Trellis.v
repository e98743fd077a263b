(** * Proofs about the two-state trellis updates. *)
From Verif Require Import Num NumFacts Arr ArrFacts MinSum MinSumFacts M_Kc_Trellis
  P_Tsp_Constraints.
Local Open Scope nat_scope.

Lemma nadd_n0_l v : nadd n0 v = v.
Proof. apply nadd_0_l. Qed.

Lemma shape_upd {A} n k (m : list (list A)) i r : shape n k m -> length r = k -> shape n k (upd m i r).
Proof. intros [H1 H2] Hr; split; [rewrite upd_length; auto|apply Forall_upd; auto]. Qed.
Lemma get2_upd {A} (m : list (list A)) i r i' j : i < length m ->
  get2 (upd m i r) i' j = if i =? i' then get r j else get2 m i' j.
Proof. intros H. unfold get2. rewrite get_upd by auto. destruct (i =? i'); auto. Qed.

(** steps that add [cs_k] to the state value *)
Definition adds (n : nat) (step : nat -> num -> option num) (cs : list num) : Prop :=
  length cs = n /\ forall k x c, k < n -> x = n0 -> get cs k = Some c -> step k x = Some c.

Definition bval0 (cs : list num) (k : nat) : num := fold_left nmin (rev (skipn k cs)) n0.

Lemma ic_forward_ok n step tbl cs :
  adds n step cs -> shape (n + 1) 2 tbl ->
  exists tbl', ic_forward n step tbl = Some tbl' /\ shape (n + 1) 2 tbl' /\
    forall k, k <= n -> get2 tbl' k 0 = Some n0 /\ get2 tbl' k 1 = Some (fval cs k).
Proof.
  intros [Hl Hst] Hs. unfold ic_forward.
  rewrite set_lt by (destruct Hs; lia); cbn [bind].
  match goal with |- context [for_up 0 n ?s ?b] =>
    destruct (for_up_ind 0 n s b (fun i t => shape (n + 1) 2 t /\
      forall k, k <= i -> get2 t k 0 = Some n0 /\ get2 t k 1 = Some (fval cs k)))
      as (t & Ht & HS & HP) end.
  - lia.
  - split; [apply shape_upd; auto|]. intros k Hk. assert (k = 0) by lia; subst.
    rewrite !get2_upd by (destruct Hs; lia). cbn. auto.
  - intros i t Hi [HS HP]. destruct (HP i) as [A0 A1]; [lia|].
    rewrite A0; cbn [bind]. rewrite (set2_lt (n + 1) 2) by (auto; lia); cbn [bind].
    pose proof (shape_upd2 _ _ t (i + 1) 0 n0 HS) as HS1.
    rewrite !(get2_upd2 (n + 1) 2) by (auto; lia).
    destruct (Nat.eqb_spec (i + 1) i) as [|Hii]; [lia|]. cbn [andb].
    rewrite A0, A1; cbn [bind].
    destruct (get_lt cs i) as [c Hc]; [lia|].
    rewrite (Hst i n0 c) by (auto; lia); cbn [bind].
    rewrite (set2_lt (n + 1) 2) by (auto; lia).
    eexists; split; [reflexivity|]. split; [apply shape_upd2; auto|].
    intros k Hk. rewrite !(get2_upd2 (n + 1) 2) by (auto; lia).
    destruct (Nat.eqb_spec (i + 1) k) as [<-|Hn]; cbn [andb Nat.eqb].
    + split; [reflexivity|]. unfold fval. rewrite (firstn_succ _ _ _ Hc), fold_left_app. reflexivity.
    + apply HP; lia.
  - exists t; auto.
Qed.

Lemma ic_backward_ok n step tbl cs :
  adds n step cs -> shape (n + 1) 2 tbl ->
  exists tbl', ic_backward n step tbl = Some tbl' /\ shape (n + 1) 2 tbl' /\
    forall k, k <= n -> get2 tbl' k 1 = Some n0 /\ get2 tbl' k 0 = Some (bval0 cs k).
Proof.
  intros [Hl Hst] Hs. unfold ic_backward.
  rewrite set_lt by (destruct Hs; lia); cbn [bind].
  match goal with |- context [for_down 0 n ?s ?b] =>
    destruct (for_down_ind 0 n s b (fun i t => shape (n + 1) 2 t /\
      forall k, i <= k <= n -> get2 t k 1 = Some n0 /\ get2 t k 0 = Some (bval0 cs k)))
      as (t & Ht & HS & HP) end.
  - lia.
  - split; [apply shape_upd; auto|]. intros k Hk. assert (k = n) by lia; subst k.
    rewrite !get2_upd by (destruct Hs; lia). rewrite Nat.eqb_refl. cbn. split; auto.
    unfold bval0. rewrite skipn_all2 by lia. reflexivity.
  - intros i t Hi [HS HP]. destruct (HP (i + 1)) as [A1 A0]; [lia|].
    rewrite A0, A1; cbn [bind].
    destruct (get_lt cs i) as [c Hc]; [lia|].
    rewrite (Hst i n0 c) by (auto; lia); cbn [bind].
    rewrite (set2_lt (n + 1) 2) by (auto; lia); cbn [bind].
    pose proof (shape_upd2 _ _ t i 0 (nmin (bval0 cs (i + 1)) c) HS) as HS1.
    rewrite !(get2_upd2 (n + 1) 2) by (auto; lia).
    destruct (Nat.eqb_spec i (i + 1)) as [|Hii]; [lia|]. cbn [andb].
    rewrite A1; cbn [bind]. rewrite (set2_lt (n + 1) 2) by (auto; lia).
    eexists; split; [reflexivity|]. split; [apply shape_upd2; auto|].
    intros k Hk. rewrite !(get2_upd2 (n + 1) 2) by (auto; lia).
    destruct (Nat.eqb_spec i k) as [<-|Hn]; cbn [andb Nat.eqb].
    + split; [reflexivity|]. unfold bval0. rewrite (skipn_succ _ _ _ Hc). cbn [rev].
      rewrite fold_left_app. reflexivity.
    + apply HP; lia.
  - exists t; split; [exact Ht|]. split; auto. intros k Hk. apply HP; lia.
Qed.

Lemma fval_bval0 qs k :
  nmin (nmin (fval (map Fin qs) k) (bval0 (map Fin qs) (k + 1))) n0
  = nmin (nmins (map Fin (remove_at k qs))) n0.
Proof.
  unfold fval, bval0.
  rewrite !firstn_map, !skipn_map, <- !map_rev.
  rewrite !nmins_fold_left by (auto using Forall_Fin with num; discriminate).
  rewrite !nmin_PInf_l by (auto using nmins_notnan, Forall_Fin).
  rewrite map_rev, nmins_rev by apply Forall_Fin.
  rewrite remove_at_split. replace (k + 1) with (S k) by lia.
  rewrite map_app, nmins_app by apply Forall_Fin.
  set (x := nmins (map Fin (firstn k qs))). set (y := nmins (map Fin (skipn (S k) qs))).
  assert (notnan x) by apply nmins_notnan, Forall_Fin.
  assert (notnan y) by apply nmins_notnan, Forall_Fin.
  assert (notnan n0) by discriminate.
  rewrite (nmin_comm n0 y) by auto.
  rewrite <- (nmin_assoc x) by (auto using nmin_notnan).
  rewrite <- (nmin_assoc y) by (auto using nmin_notnan).
  rewrite nmin_idem. apply nmin_assoc; auto.
Qed.

(** ** Project update *)
Lemma project_one_ok P T Mq fwd bwd out p :
  shape P T Mq -> shape P T out -> p < P -> shape (T + 1) 2 fwd -> shape (T + 1) 2 bwd ->
  exists fwd' bwd' out', project_one T (inj Mq) (fwd, bwd, out) p = Some (fwd', bwd', out') /\
    shape (T + 1) 2 fwd' /\ shape (T + 1) 2 bwd' /\ shape P T out' /\
    (forall t, t < T -> get2 out' p t =
       Some (nopp (nmin (nmins (map Fin (remove_at t (nth p Mq [])))) n0))) /\
    (forall q t, q <> p -> get2 out' q t = get2 out q t).
Proof.
  intros HM HO Hp HF HB. unfold project_one.
  set (qs := nth p Mq []).
  assert (Lq : length qs = T).
  { destruct HM as [L F]. rewrite Forall_forall in F. apply F, nth_In; lia. }
  assert (HA : adds T (fun stage x => m <- get2 (inj Mq) p stage ;; Some (nadd x m)) (map Fin qs)).
  { split; [rewrite map_length; auto|]. intros k x c Hk -> Hc.
    rewrite (get2_inj P T) by auto; cbn [bind]. rewrite nadd_n0_l.
    rewrite get_map in Hc. rewrite (get_nth qs k 0%Qc) in Hc by lia. cbn in Hc. exact Hc. }
  destruct (ic_forward_ok _ _ _ _ HA HF) as (f & E1 & S1 & P1).
  destruct (ic_backward_ok _ _ _ _ HA HB) as (b & E2 & S2 & P2).
  rewrite E1; cbn [bind]. rewrite E2; cbn [bind].
  match goal with |- context [for_up 0 T out ?body] =>
    destruct (for_up_ind 0 T out body (fun i o => shape P T o /\
      (forall t, t < i -> get2 o p t =
         Some (nopp (nmin (nmins (map Fin (remove_at t qs))) n0))) /\
      (forall q t, q <> p -> get2 o q t = get2 out q t))) as (o & E3 & S3 & P3 & Q3) end.
  - lia.
  - split; auto. split; auto. intros; lia.
  - intros i o Hi (S3 & P3 & Q3).
    destruct (P1 i) as [_ ->]; [lia|]. cbn [bind].
    destruct (P2 (i + 1)) as [_ ->]; [lia|]. cbn [bind].
    rewrite fval_bval0. rewrite (set2_lt P T) by (auto; lia).
    eexists; split; [reflexivity|]. split; [apply shape_upd2; auto|]. split.
    + intros t Ht. rewrite (get2_upd2 P T) by (auto; lia). rewrite Nat.eqb_refl.
      destruct (Nat.eqb_spec i t) as [<-|Hn]; cbn [andb]; auto. apply P3; lia.
    + intros q t Hq. rewrite (get2_upd2 P T) by (auto; lia).
      destruct (Nat.eqb_spec p q) as [|Hpq]; [congruence|]; cbn [andb]; auto.
  - rewrite E3; cbn [bind]. exists f, b, o. auto 8.
Qed.

Lemma project_update_ok P T Mq out :
  shape P T Mq -> shape P T out ->
  exists out', project_update T (inj Mq) out = Some out' /\ shape P T out' /\
    (forall p t, p < P -> t < T -> get2 out' p t =
       Some (nopp (nmin (nmins (map Fin (remove_at t (nth p Mq [])))) n0))).
Proof.
  intros HM HO. unfold project_update. replace (length out) with P by (destruct HO; auto).
  match goal with |- context [for_up 0 P ?st0 ?bd] =>
    destruct (for_up_ind 0 P st0 bd (fun i st => exists f b o, st = (f, b, o) /\
       shape (T + 1) 2 f /\ shape (T + 1) 2 b /\ shape P T o /\
       forall p t, p < i -> t < T -> get2 o p t =
         Some (nopp (nmin (nmins (map Fin (remove_at t (nth p Mq [])))) n0))))
      as (st & E & f & b' & o & -> & _ & _ & S3 & P3) end.
  - lia.
  - do 3 eexists; split; [reflexivity|].
    assert (shape (T + 1) 2 (repeat [n0; n0] (T + 1))) by (apply (shape_repeat (T + 1) 2 n0)).
    repeat (split; [assumption|]). intros; lia.
  - intros p st Hp (f & b & o & -> & S1 & S2 & S3 & P3).
    destruct (project_one_ok P T Mq f b o p) as (f' & b' & o' & E & S1' & S2' & S3' & P3' & Q3);
      auto; [lia|].
    eexists; split; [exact E|]. exists f', b', o'. split; [reflexivity|].
    repeat (split; [assumption|]). intros q t Hq Ht.
    destruct (Nat.eq_dec q p) as [->|Hn]; [apply P3'; auto|].
    rewrite Q3 by auto. apply P3; auto; lia.
  - rewrite E; cbn [bind]. exists o; auto.
Qed.

(** ** ORIC *)
Lemma nmins_shift qs c :
  nmins (map Fin (map (fun e => (e + c)%Qc) qs)) = nadd (nmins (map Fin qs)) (Fin c).
Proof.
  induction qs as [|a qs IH]; cbn [map nmins]; auto. rewrite IH.
  change (Fin (a + c)%Qc) with (nadd (Fin a) (Fin c)).
  rewrite nmin_nadd_Fin by (auto using nmins_notnan, Forall_Fin with num). reflexivity.
Qed.

Lemma coupled_message t es p : p < length es ->
  minsum_message coupled (t :: es) (S p)
    (nsub (Fin t) (nmin (nmins (map Fin (remove_at p (map (fun e => (e + t)%Qc) es)))) n0)).
Proof.
  intros Hp.
  exists (Fin t), (nmin n0 (nadd (nmins (map Fin (remove_at p es))) (Fin t))). split; [|split].
  - eapply best_iff with (al' := fun y => match y with true :: y => none y | _ => False end);
      [cbn; lia| |].
    + intros y L. cbn in L. destruct y as [|b y]; cbn in L; [lia|].
      cbn [insert_at coupled]. rewrite ones_insert by lia. destruct b; unfold none; intuition lia.
    + cbn [remove_at]. replace (Fin t) with (nmin PInf (nadd (Fin 0%Qc) (Fin t))).
      2:{ rewrite nmin_PInf_l by discriminate. apply nadd_n0_l. }
      apply cmin_cons; [apply cmin_none|]. apply cmin_impossible; auto.
  - eapply best_iff with (al' := coupled); [cbn; lia| |].
    + intros y L. cbn in L. destruct y as [|b y]; cbn in L; [lia|].
      cbn [insert_at coupled]. rewrite ones_insert by lia. reflexivity.
    + cbn [remove_at]. apply cmin_cons; [apply cmin_exactly_one|apply cmin_none].
  - f_equal. rewrite remove_at_map, nmins_shift.
    apply nmin_comm; [|discriminate].
    apply is_min_of_notnan with (P := fun q => exists r, In r (remove_at p es) /\ q = (r + t)%Qc).
    apply is_min_of_shift, nmins_is_min.
Qed.

Lemma coupled_team_message t es :
  minsum_message coupled (t :: es) 0 (nmins (map Fin es)).
Proof.
  exists (nmins (map Fin es)), (Fin 0%Qc). split; [|split].
  - eapply best_iff with (al' := exactly_one); [cbn; lia| |apply cmin_exactly_one].
    intros y L. cbn. reflexivity.
  - eapply best_iff with (al' := none); [cbn; lia| |apply cmin_none].
    intros y L. cbn. reflexivity.
  - unfold nsub; cbn. destruct (nmins (map Fin es)); cbn; auto. f_equal. qlra.
Qed.

Lemma get_seq lo n k : k < n -> get (seq lo n) k = Some (lo + k).
Proof.
  intros H. unfold get. rewrite (nth_error_nth' _ 0) by (rewrite seq_length; auto).
  rewrite seq_nth by auto. auto.
Qed.
Lemma get_col M P t k : k < P -> get (col M P t) k = Some (qat M k t).
Proof. intros H. unfold col. rewrite get_map, get_seq by auto. reflexivity. Qed.
Lemma col_length M P t : length (col M P t) = P.
Proof. unfold col. rewrite map_length, seq_length; auto. Qed.

Definition oric_val (Mq : list (list Qc)) (P : nat) (tq : list Qc) (p t : nat) : num :=
  nsub (Fin (nth t tq 0%Qc))
    (nmin (nmins (map Fin (remove_at p (map (fun e => (e + nth t tq 0)%Qc) (col Mq P t))))) n0).

Lemma oric_one_ok P T Mq tq Rq fwd bwd o1 o2 t :
  shape P T Mq -> shape P T Rq -> length tq = T -> t < T ->
  shape P T o1 -> shape P T o2 -> shape (P + 1) 2 fwd -> shape (P + 1) 2 bwd ->
  exists fwd' bwd' o1' o2',
    oric_one P (inj Mq) (map Fin tq) (inj Rq) (fwd, bwd, o1, o2) t = Some (fwd', bwd', o1', o2') /\
    shape (P + 1) 2 fwd' /\ shape (P + 1) 2 bwd' /\ shape P T o1' /\ shape P T o2' /\
    (forall p, p < P -> get2 o1' p t = Some (oric_val Mq P tq p t) /\
                        get2 o2' p t = Some (nadd (oric_val Mq P tq p t) (Fin (qat Rq p t)))) /\
    (forall p s, s <> t -> get2 o1' p s = get2 o1 p s /\ get2 o2' p s = get2 o2 p s).
Proof.
  intros HM HR Ht Htl H1 H2 HF HB. unfold oric_one.
  set (tv := nth t tq 0%Qc). set (qs := map (fun e => (e + tv)%Qc) (col Mq P t)).
  assert (Htv : get (map Fin tq) t = Some (Fin tv)).
  { rewrite get_map, (get_nth tq t 0%Qc) by lia. reflexivity. }
  assert (HA : adds P (fun stage x => e <- get2 (inj Mq) stage t ;; m <- get (map Fin tq) t ;;
                                      Some (nadd (nadd x e) m)) (map Fin qs)).
  { split; [unfold qs; rewrite !map_length, col_length; auto|]. intros k x c Hk -> Hc.
    rewrite (get2_inj P T) by auto; cbn [bind]. rewrite Htv; cbn [bind]. rewrite nadd_n0_l.
    unfold qs in Hc. rewrite !get_map, get_col in Hc by auto. cbn [option_map] in Hc. exact Hc. }
  destruct (ic_forward_ok _ _ _ _ HA HF) as (f & E1 & S1 & P1).
  destruct (ic_backward_ok _ _ _ _ HA HB) as (b & E2 & S2 & P2).
  rewrite E1; cbn [bind]. rewrite E2; cbn [bind].
  match goal with |- context [for_up 0 P ?st0 ?body] =>
    destruct (for_up_ind 0 P st0 body (fun i st => exists a1 a2, st = (a1, a2) /\
      shape P T a1 /\ shape P T a2 /\
      (forall p, p < i -> get2 a1 p t = Some (oric_val Mq P tq p t) /\
                          get2 a2 p t = Some (nadd (oric_val Mq P tq p t) (Fin (qat Rq p t)))) /\
      (forall p s, s <> t -> get2 a1 p s = get2 o1 p s /\ get2 a2 p s = get2 o2 p s)))
      as (st & E3 & a1 & a2 & -> & S3 & S4 & P3 & Q3) end.
  - lia.
  - do 2 eexists; split; [reflexivity|]. split; [auto|split; [auto|split]]; auto. intros; lia.
  - intros p st Hp (a1 & a2 & -> & S3 & S4 & P3 & Q3).
    destruct (P1 p) as [_ ->]; [lia|]. cbn [bind].
    destruct (P2 (p + 1)) as [_ ->]; [lia|]. cbn [bind].
    rewrite Htv; cbn [bind]. rewrite fval_bval0.
    change (nsub (Fin tv) (nmin (nmins (map Fin (remove_at p qs))) n0)) with (oric_val Mq P tq p t).
    rewrite (set2_lt P T) by (auto; lia); cbn [bind].
    rewrite (get2_upd2 P T) by (auto; lia). rewrite !Nat.eqb_refl; cbn [andb bind].
    rewrite (get2_inj P T) by (auto; lia); cbn [bind].
    rewrite (set2_lt P T) by (auto; lia); cbn [bind].
    eexists; split; [reflexivity|]. do 2 eexists; split; [reflexivity|].
    split; [apply shape_upd2; auto|]. split; [apply shape_upd2; auto|]. split.
    + intros q Hq. rewrite !(get2_upd2 P T) by (auto; lia). rewrite !Nat.eqb_refl.
      destruct (Nat.eqb_spec p q) as [<-|Hn]; cbn [andb]; auto. apply P3; lia.
    + intros q s Hs. rewrite !(get2_upd2 P T) by (auto; lia).
      destruct (Nat.eqb_spec t s) as [|Hts]; [congruence|]. rewrite andb_false_r. auto.
  - rewrite E3; cbn [bind]. exists f, b, a1, a2. auto 10.
Qed.

Lemma oric_to_project_ok P T Mq tq Rq o1 o2 :
  shape P T Mq -> shape P T Rq -> length tq = T -> shape P T o1 -> shape P T o2 ->
  exists o1' o2',
    oric_to_project_update P T (inj Mq) (map Fin tq) o1 o2 (inj Rq) = Some (o1', o2') /\
    shape P T o1' /\ shape P T o2' /\
    (forall p t, p < P -> t < T ->
       get2 o1' p t = Some (oric_val Mq P tq p t) /\
       get2 o2' p t = Some (nadd (oric_val Mq P tq p t) (Fin (qat Rq p t)))).
Proof.
  intros HM HR Ht H1 H2. unfold oric_to_project_update.
  match goal with |- context [for_up 0 T ?st0 ?bd] =>
    destruct (for_up_ind 0 T st0 bd (fun i st => exists f b a1 a2, st = (f, b, a1, a2) /\
       shape (P + 1) 2 f /\ shape (P + 1) 2 b /\ shape P T a1 /\ shape P T a2 /\
       forall p t, p < P -> t < i ->
         get2 a1 p t = Some (oric_val Mq P tq p t) /\
         get2 a2 p t = Some (nadd (oric_val Mq P tq p t) (Fin (qat Rq p t)))))
      as (st & E & f & b' & a1 & a2 & -> & _ & _ & S3 & S4 & P3) end.
  - lia.
  - do 4 eexists; split; [reflexivity|].
    assert (shape (P + 1) 2 (repeat [n0; n0] (P + 1))) by (apply (shape_repeat (P + 1) 2 n0)).
    repeat (split; [assumption|]). intros; lia.
  - intros t st Htl (f & b & a1 & a2 & -> & S1 & S2 & S3 & S4 & P3).
    destruct (oric_one_ok P T Mq tq Rq f b a1 a2 t)
      as (f' & b' & a1' & a2' & E & S1' & S2' & S3' & S4' & P3' & Q3); auto; [lia|].
    eexists; split; [exact E|]. do 4 eexists. split; [reflexivity|].
    repeat (split; [assumption|]). intros p s Hp Hs.
    destruct (Nat.eq_dec s t) as [->|Hn]; [apply P3'; auto|].
    destruct (Q3 p s Hn) as [-> ->]. apply P3; auto; lia.
  - rewrite E; cbn [bind]. exists a1, a2; auto.
Qed.

Lemma oric_to_team_ok P T Mq o :
  shape P T Mq -> length o = T ->
  exists o', oric_to_team_update (inj Mq) o = Some o' /\ length o' = T /\
    forall t, t < T -> get o' t = Some (nmin oric_cap (nmins (map Fin (col Mq P t)))).
Proof.
  intros HM HO. unfold oric_to_team_update. rewrite HO.
  replace (length (inj Mq)) with P by (unfold inj; rewrite map_length; destruct HM; auto).
  match goal with |- context [for_up 0 T ?st0 ?bd] =>
    destruct (for_up_ind 0 T st0 bd (fun i a => length a = T /\
       forall t, t < i -> get a t = Some (nmin oric_cap (nmins (map Fin (col Mq P t))))))
      as (a & E & L & HP) end.
  - lia.
  - split; auto. intros; lia.
  - intros t a Ht [L HP].
    match goal with |- context [for_up 0 P ?st0 ?bd] =>
      destruct (for_up_ind 0 P st0 bd (fun i v => v = fold_left nmin (firstn i (map Fin (col Mq P t))) oric_cap))
        as (v & Ev & ->) end.
    + lia.
    + reflexivity.
    + intros p v Hp ->. rewrite (get2_inj P T) by (auto; lia). cbn [bind].
      eexists; split; [reflexivity|].
      rewrite (firstn_succ _ p (Fin (qat Mq p t))).
      2:{ rewrite get_map, get_col by lia. reflexivity. }
      rewrite fold_left_app. reflexivity.
    + rewrite Ev; cbn [bind]. rewrite set_lt by lia. eexists; split; [reflexivity|].
      split; [rewrite upd_length; auto|]. intros s Hs. rewrite get_upd by lia.
      destruct (Nat.eqb_spec t s) as [<-|Hn]; [|apply HP; lia].
      rewrite firstn_all2 by (rewrite map_length, col_length; lia).
      f_equal. apply nmins_fold_left; [discriminate|apply Forall_Fin].
  - exists a; auto.
Qed.
