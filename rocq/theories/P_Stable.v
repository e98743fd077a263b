(** * How far changes of the inputs travel: proofs for C98. *)
From Verif Require Import Arr ArrFacts MinSum MinSumFacts NumFacts SpecRun SpecLiterals SpecWithin M_InOut P_InOut M_Runs P_Runs P_Ksat P_Schedule.
From Verif Require Import P_Kc_Range P_Ksat_Range T_Tsp_Sym.
From Verif Require P_Settled P_Ksat_Limit.
From Verif Require Import Spec Num.
Local Open Scope nat_scope.

Lemma within_sym e x y : within e x y -> within e y x.
Proof. unfold within. intros [A B]. split; qlra. Qed.

(** ** Filtering *)
Lemma filtered_sub flag a d d' t : filtered flag a (fun i => (d i - d' i)%Qc) t = (filtered flag a d t - filtered flag a d' t)%Qc.
Proof.
  unfold filtered. destruct (flag && negb _); [|reflexivity].
  induction (seq 0 (t + 1)) as [|i l IH]; [reflexivity|]. cbn [map]. rewrite !qsum_cons, IH. ring.
Qed.
Lemma filtered_within flag a d d' t c : (flag = true -> 0 <= a /\ a <= 1)%Qc -> (0 <= c)%Qc ->
  (forall i, i <= t -> within c (d i) (d' i)) -> within c (filtered flag a d t) (filtered flag a d' t).
Proof.
  intros Ha Hc H. unfold within. rewrite <- filtered_sub.
  set (p := fun i => if qltb 0 (d i - d' i)%Qc then (d i - d' i)%Qc else 0%Qc).
  set (m := fun i => if qltb 0 (d i - d' i)%Qc then 0%Qc else (d' i - d i)%Qc).
  rewrite (filtered_ext flag a _ (fun i => (p i - m i)%Qc) t).
  2:{ intros i _. unfold p, m. destruct (qltb_spec 0 (d i - d' i)); ring. }
  rewrite filtered_sub.
  destruct (filtered_between flag a p t c Ha Hc) as [P1 P2].
  { intros i Hi. destruct (H i Hi). unfold p. destruct (qltb_spec 0 (d i - d' i)); split; qlra. }
  destruct (filtered_between flag a m t c Ha Hc) as [M1 M2].
  { intros i Hi. destruct (H i Hi). unfold m. destruct (qltb_spec 0 (d i - d' i)); split; qlra. }
  split; qlra.
Qed.

(** ** Clause messages *)
Lemma remove_at_get {A} (j i : nat) (l : list A) : nth_error (remove_at j l) i = nth_error l (if i <? j then i else S i).
Proof.
  revert j i. induction l as [|x l IH]; intros j i.
  - destruct j; cbn [remove_at]; destruct (i <? _); destruct i; reflexivity.
  - destruct j as [|j]; [destruct i; reflexivity|]. destruct i as [|i]; [reflexivity|]. cbn [remove_at nth_error]. rewrite IH.
    change (S i <? S j) with (i <? j). destruct (i <? j); reflexivity.
Qed.
Lemma min_within (l l' : list Qc) q q' U : length l = length l' -> (forall i a b, nth_error l i = Some a -> nth_error l' i = Some b -> within U a b) ->
  nmins (map Fin l) = Fin q -> nmins (map Fin l') = Fin q' -> (q' <= q + U)%Qc.
Proof.
  intros L H E E'. pose proof (nmins_is_min l) as X. rewrite E in X. pose proof (nmins_is_min l') as Y. rewrite E' in Y.
  cbn in X, Y. destruct X as [X _]. destruct Y as [_ Y]. apply In_nth_error in X as [i Gi].
  assert (i < length l') by (rewrite <- L; apply nth_error_Some; congruence).
  destruct (nth_error l' i) as [b|] eqn:Gb; [|apply nth_error_None in Gb; lia].
  destruct (H i q b Gi Gb). specialize (Y b (nth_error_In _ _ Gb)). qlra.
Qed.
Lemma clause_within sg m m' j s d d' U : length sg = length m -> length m = length m' -> 2 <= length m -> nth_error sg j = Some s ->
  minsum_message (clause_ok sg) m j (Fin d) -> minsum_message (clause_ok sg) m' j (Fin d') -> (0 <= U)%Qc ->
  (forall i v v', nth_error m i = Some v -> nth_error m' i = Some v' -> within U v v') -> within U d d'.
Proof.
  intros L L' L2 Hs M M' HU H.
  pose proof (minsum_message_unique _ _ _ _ _ M (clause_message sg m j s L Hs)) as E.
  pose proof (minsum_message_unique _ _ _ _ _ M' (clause_message sg m' j s ltac:(lia) Hs)) as E'.
  set (cs := lit_costs sg m) in *. set (cs' := lit_costs sg m') in *.
  assert (Lc : length cs = length m) by (apply lit_costs_length; auto).
  assert (Lc' : length cs' = length m') by (apply lit_costs_length; lia).
  assert (Hj : j < length cs) by (rewrite Lc, <- L; apply nth_error_Some; congruence).
  assert (Cl : forall i a b, nth_error cs i = Some a -> nth_error cs' i = Some b -> within U a b).
  { intros i a b Ga Gb. assert (Hi : i < length m) by (rewrite <- Lc; apply nth_error_Some; congruence).
    destruct (nth_error sg i) as [s'|] eqn:Gs; [|apply nth_error_None in Gs; lia].
    destruct (nth_error m i) as [v|] eqn:Gm; [|apply nth_error_None in Gm; lia].
    destruct (nth_error m' i) as [v'|] eqn:Gm'; [|apply nth_error_None in Gm'; lia].
    pose proof (lit_costs_get _ _ _ _ _ Gs Gm) as G. unfold get in G. fold cs in G. rewrite Ga in G. injection G as ->.
    pose proof (lit_costs_get _ _ _ _ _ Gs Gm') as G. unfold get in G. fold cs' in G. rewrite Gb in G. injection G as ->.
    destruct (H i v v' Gm Gm'). unfold within. destruct s'; unfold sgn; split; qlra. }
  set (r := remove_at j cs) in *. set (r' := remove_at j cs') in *.
  pose proof (remove_at_length j cs Hj) as Lr. pose proof (remove_at_length j cs' ltac:(lia)) as Lr'. fold r in Lr. fold r' in Lr'.
  assert (Rl : forall i a b, nth_error r i = Some a -> nth_error r' i = Some b -> within U a b).
  { intros i a b. unfold r, r'. rewrite !remove_at_get. apply Cl. }
  assert (Nr : r <> []) by (intros X; rewrite X in Lr; cbn in Lr; lia).
  assert (Nr' : r' <> []) by (intros X; rewrite X in Lr'; cbn in Lr'; lia).
  destruct (nmins_Fin r Nr) as (q & Eq & _). destruct (nmins_Fin r' Nr') as (q' & Eq' & _).
  pose proof (min_within r r' q q' U ltac:(lia) Rl Eq Eq') as Q1.
  pose proof (min_within r' r q' q U ltac:(lia) (fun i a b A B => within_sym _ _ _ (Rl i b a B A)) Eq' Eq) as Q2.
  unfold clause_val, alo in E, E'. fold r in E. fold r' in E'. rewrite Eq in E. rewrite Eq' in E'. unfold nmax, n0, nlt in E, E'. unfold within.
  destruct (qltb_spec q 0) as [Q|Q], (qltb_spec q' 0) as [Q'|Q']; cbn [nadd nsub nopp nmul] in E, E';
    injection E as ->; injection E' as ->; destruct s; unfold sgn; split; qlra.
Qed.

Lemma sum_within {A} (f g : A -> Qc) l U : (forall a, In a l -> within U (f a) (g a)) ->
  within (qn (length l) * U) (qsum (map f l)) (qsum (map g l)).
Proof.
  unfold within. intros H. rewrite <- P_Settled.sum_minus. induction l as [|a l IH].
  - cbn [map length]. rewrite qn_0. unfold qsum; cbn [fold_right]. split; qlra.
  - cbn [map]. rewrite qsum_cons. cbn [length]. change (S (length l)) with (1 + length l). rewrite qn_add, qn_1.
    destruct (H a (or_introl eq_refl)). destruct IH as [I1 I2]; [intros b I; apply H; right; auto|]. split; qlra.
Qed.
Lemma others_length c l : NoDup l -> In c l -> S (length (others c l)) = length l.
Proof.
  intros ND I. induction ND as [|a l Na ND IH]; [destruct I|]. unfold others in *. cbn [filter].
  destruct (Nat.eqb_spec a c) as [->|N]; cbn [negb length].
  - f_equal. clear IH I. induction l as [|b l IH]; [reflexivity|]. cbn [filter]. destruct (Nat.eqb_spec b c) as [->|]; cbn [negb].
    + destruct Na. left; auto.
    + cbn [length]. f_equal. apply IH; [intros X; apply Na; right; auto|]. inversion ND; auto.
  - f_equal. apply IH. destruct I as [->|I]; [congruence|auto].
Qed.

(** ** K-SAT: two runs on the same formula *)
Section Two.
Variables (nv nc k d : nat) (metrics metrics' : list Qc) (conx : list (list nat)) (types : list (list Z)).
Variables (V0 V0' : list (list Qc)) (varconx : list (list nat)) (flag : bool) (alpha e : Qc).
Hypothesis Hk : 2 <= k.
Hypothesis Hc : length conx = nc.
Hypothesis Ht : length types = nc.
Hypothesis Hwf : forall c cx tys, nth_error conx c = Some cx -> nth_error types c = Some tys -> clause_wf nv k cx tys.
Hypothesis Hv : length varconx = nv.
Hypothesis Hin : forall x l, nth_error varconx x = Some l -> NoDup l /\ forall c, In c l <-> c < nc /\ In x (nth c conx []).
Hypothesis Hd : forall x l, nth_error varconx x = Some l -> length l <= S d.
Definition steps_of (mt : list Qc) (V D M : nat -> list (list Qc)) : Prop := forall t,
  (forall c cx tys, nth_error conx c = Some cx -> nth_error types c = Some tys ->
     (forall j x, nth_error cx j = Some x ->
        minsum_message (clause_ok (signs tys)) (map (fun x => qat (V t) c x) cx) j (Fin (qat (D t) c x))) /\
     (forall x, x < nv -> ~ In x cx -> qat (D t) c x = 0%Qc)) /\
  (forall c x, c < nc -> x < nv -> qat (M t) c x = filtered flag alpha (fun i => qat (D i) c x) t) /\
  (forall x l c, nth_error varconx x = Some l -> In c l ->
     qat (V (t + 1)) c x = (nth x mt 0 + qsum (map (fun c => qat (M t) c x) (others c l)))%Qc) /\
  (forall c x l, c < nc -> nth_error varconx x = Some l -> ~ In c l -> qat (V (t + 1)) c x = 0%Qc).
Variables V D M V' D' M' : nat -> list (list Qc).
Hypothesis E0 : V 0 = V0.
Hypothesis E0' : V' 0 = V0'.
Hypothesis HT : steps_of metrics V D M.
Hypothesis HT' : steps_of metrics' V' D' M'.
Hypothesis He : (0 <= e)%Qc.
Hypothesis Hmet : forall x, x < nv -> within e (nth x metrics 0%Qc) (nth x metrics' 0%Qc).
Hypothesis Hst : forall c x, c < nc -> x < nv -> within e (qat V0 c x) (qat V0' c x).
Hypothesis Hflag : flag = true -> (0 <= alpha /\ alpha <= 1)%Qc.
Definition spread (t : nat) : Qc := (qn (powers d (t + 1)) * e)%Qc.

Lemma spread_pos t : (0 <= spread t)%Qc.
Proof. unfold spread. pose proof (Qcmult_le_compat_r 0 (qn (powers d (t + 1))) e (qn_nonneg _) He). qlra. Qed.
Lemma spread_mono i t : i <= t -> (spread i <= spread t)%Qc.
Proof. intros H. unfold spread. apply Qcmult_le_compat_r; auto. apply qn_mono, powers_mono. lia. Qed.
Lemma spread_S t : spread (t + 1) = (e + qn d * spread t)%Qc.
Proof. unfold spread. replace (t + 1 + 1) with (S (t + 1)) by lia. rewrite powers_S, qn_add, qn_mul, qn_1. ring. Qed.

Lemma D_within t c x : c < nc -> x < nv -> (forall c x, c < nc -> x < nv -> within (spread t) (qat (V t) c x) (qat (V' t) c x)) ->
  within (spread t) (qat (D t) c x) (qat (D' t) c x).
Proof.
  intros Hcl Hx HVt. destruct (HT t) as (Q & _). destruct (HT' t) as (Q' & _).
  destruct (nth_error conx c) as [cx|] eqn:G1; [|apply nth_error_None in G1; lia].
  destruct (nth_error types c) as [tys|] eqn:G2; [|apply nth_error_None in G2; lia].
  destruct (Hwf c cx tys G1 G2) as (L1 & L2 & ND & FR & _).
  destruct (Q c cx tys G1 G2) as [Q1 Q2]. destruct (Q' c cx tys G1 G2) as [Q1' Q2'].
  destruct (in_dec Nat.eq_dec x cx) as [I|I].
  - apply In_nth_error in I as [j Gj].
    assert (Hj : j < k) by (rewrite <- L1; apply nth_error_Some; congruence).
    destruct (nth_error (signs tys) j) as [s|] eqn:Gs.
    2:{ apply nth_error_None in Gs. unfold signs in Gs. rewrite map_length in Gs. lia. }
    refine (clause_within (signs tys) _ _ j s _ _ (spread t) _ _ _ Gs (Q1 j x Gj) (Q1' j x Gj) (spread_pos t) _).
    + unfold signs. rewrite !map_length. lia.
    + rewrite !map_length. lia.
    + rewrite map_length. lia.
    + intros i v v' Gv Gv'. rewrite nth_error_map in Gv, Gv'. destruct (nth_error cx i) as [y|] eqn:Gy; [|discriminate].
      injection Gv as <-. injection Gv' as <-. apply HVt; auto. rewrite Forall_forall in FR. apply FR. eapply nth_error_In; eauto.
  - rewrite Q2, Q2' by auto. pose proof (spread_pos t). unfold within. split; qlra.
Qed.
Lemma V_within : forall t c x, c < nc -> x < nv -> within (spread t) (qat (V t) c x) (qat (V' t) c x).
Proof.
  induction t as [t IH] using lt_wf_ind. destruct t as [|t].
  - intros c x Hcl Hx. rewrite E0, E0'. unfold spread. change (powers d (0 + 1)) with 1. rewrite qn_1.
    destruct (Hst c x Hcl Hx). unfold within. split; qlra.
  - intros c x Hcl Hx. replace (S t) with (t + 1) by lia. pose proof (spread_pos t) as SP.
    destruct (nth_error varconx x) as [l|] eqn:G; [|apply nth_error_None in G; lia].
    destruct (HT t) as (_ & M1 & V1 & V2). destruct (HT' t) as (_ & M1' & V1' & V2').
    destruct (in_dec Nat.eq_dec c l) as [I|I].
    + rewrite (V1 x l c G I), (V1' x l c G I). destruct (Hin x l G) as [ND In'].
      destruct (sum_within (fun c => qat (M t) c x) (fun c => qat (M' t) c x) (others c l) (spread t)) as [S1 S2].
      { intros c' I'. apply filter_In in I' as [I' _]. apply In' in I' as [I' _]. rewrite M1, M1' by auto.
        apply filtered_within; auto. intros i Hi. destruct (D_within i c' x I' Hx) as [D1 D2]; [intros; apply IH; auto; lia|].
        pose proof (spread_mono i t Hi). split; qlra. }
      assert (Le : (qn (length (others c l)) * spread t <= qn d * spread t)%Qc).
      { apply Qcmult_le_compat_r; auto. apply qn_mono. pose proof (others_length c l ND I). specialize (Hd x l G). lia. }
      destruct (Hmet x Hx). rewrite spread_S. unfold within. split; qlra.
    + rewrite (V2 c x l), (V2' c x l) by auto. pose proof (spread_pos (t + 1)). unfold within. split; qlra.
Qed.
Lemma total_within t x : x < nv ->
  within (qn (length (nth x varconx [])) * spread t) (qsum (map (fun c => qat (M t) c x) (seq 0 nc))) (qsum (map (fun c => qat (M' t) c x) (seq 0 nc))).
Proof.
  intros Hx. destruct (nth_error varconx x) as [l|] eqn:G; [|apply nth_error_None in G; lia].
  rewrite (nth_error_nth _ _ _ G). destruct (Hin x l G) as [ND In'].
  assert (Z : forall mt V D M, steps_of mt V D M -> qsum (map (fun c => qat (M t) c x) (seq 0 nc)) = qsum (map (fun c => qat (M t) c x) l)).
  { clear - Hc Ht Hx Hin G ND In'. intros mt V D M HT.
    rewrite (P_Settled.sum_perm (map (fun c => qat (M t) c x) l) (map (fun c => qat (M t) c x) (filter (fun c => if in_dec Nat.eq_dec x (nth c conx []) then true else false) (seq 0 nc)))).
    - rewrite P_Settled.sum_filter. apply P_Settled.sum_ext. intros c I. apply in_seq in I.
      destruct (in_dec Nat.eq_dec x (nth c conx [])) as [J|J]; [reflexivity|].
      destruct (HT t) as (_ & M1 & _). rewrite M1 by lia. apply P_Ksat_Limit.filtered_none. intros i _.
      destruct (nth_error conx c) as [cx|] eqn:G1; [|apply nth_error_None in G1; lia].
      destruct (nth_error types c) as [tys|] eqn:G2; [|apply nth_error_None in G2; lia].
      destruct (HT i) as (Q & _). apply (proj2 (Q c cx tys G1 G2)); auto. now rewrite (nth_error_nth _ _ _ G1) in J.
    - apply Permutation.Permutation_map, Permutation.NoDup_Permutation; [auto|apply NoDup_filter, seq_NoDup|]. intros c. rewrite In', filter_In, in_seq.
      destruct (in_dec Nat.eq_dec x (nth c conx [])); split; intros [A B]; split; auto; try lia; try contradiction; discriminate. }
  rewrite (Z _ _ _ _ HT), (Z _ _ _ _ HT'). apply sum_within. intros c I. apply In' in I as [I _].
  destruct (HT t) as (_ & M1 & _). destruct (HT' t) as (_ & M1' & _). rewrite M1, M1' by auto.
  apply filtered_within; auto using spread_pos. intros i Hi. destruct (D_within i c x I Hx (V_within i)) as [D1 D2].
  pose proof (spread_mono i t Hi). split; qlra.
Qed.
End Two.

(** ** The first TSP stage: two runs *)
Lemma tsp_within n w w' be (R C DR DC R' C' DR' DC' : nat -> nat -> nat -> Qc) e : (0 <= be /\ be <= 1)%Qc -> (0 <= e)%Qc ->
  schedule n be w R C DR DC -> schedule n be w' R' C' DR' DC' ->
  (forall u v, u < n -> v < n -> u <> v -> within e (w u v) (w' u v)) ->
  forall t u v, u < n -> v < n -> u <> v -> within (qn t * e) (R t u v) (R' t u v) /\ within (qn t * e) (C t u v) (C' t u v).
Proof.
  intros (B0 & B1) He (H0 & HS) (H0' & HS') Hw. induction t as [|t IH]; intros u v Hu Hv N.
  - destruct (H0 u v Hu Hv N) as (-> & ->). destruct (H0' u v Hu Hv N) as (-> & ->). rewrite qn_0. unfold within. repeat split; qlra.
  - destruct (HS t u v Hu Hv N) as (((j & J1 & J2 & J3 & J4) & J5) & ((l & L1 & L2 & L3 & L4) & L5) & -> & ->).
    destruct (HS' t u v Hu Hv N) as (((j' & J1' & J2' & J3' & J4') & J5') & ((l' & L1' & L2' & L3' & L4') & L5') & -> & ->).
    change (S t) with (1 + t). rewrite qn_add, qn_1. set (b := ((1 + qn t) * e)%Qc).
    assert (Eb : b = (e + qn t * e)%Qc) by (unfold b; ring).
    assert (A : within b (DR t u v) (DR' t u v)).
    { pose proof (J5 j' J1' J2' J3') as X. pose proof (J5' j J1 J2 J3) as X'.
      destruct (IH u j Hu J1 (not_eq_sym J2)) as (_ & A1 & A2). destruct (IH u j' Hu J1' (not_eq_sym J2')) as (_ & A1' & A2').
      destruct (Hw u j Hu J1 (not_eq_sym J2)). destruct (Hw u j' Hu J1' (not_eq_sym J2')). unfold within. split; qlra. }
    assert (A' : within b (DC t u v) (DC' t u v)).
    { pose proof (L5 l' L1' L2' L3') as X. pose proof (L5' l L1 L2 L3) as X'.
      destruct (IH l v L1 Hv L2) as ((A1 & A2) & _). destruct (IH l' v L1' Hv L2') as ((A1' & A2') & _).
      destruct (Hw l v L1 Hv L2). destruct (Hw l' v L1' Hv L2'). unfold within. split; qlra. }
    destruct (IH u v Hu Hv N) as ((P1 & P2) & (Q1 & Q2)).
    assert (Mix : forall x y x' y', within b x x' -> within b y y' -> within b (be * x + (1 - be) * y) (be * x' + (1 - be) * y')).
    { intros x y x' y' (X1 & X2) (Y1 & Y2).
      assert (Mul : forall z, (0 <= z)%Qc -> (0 <= be * z)%Qc /\ (0 <= (1 - be) * z)%Qc).
      { intros z Hz. split; [pose proof (Qcmult_le_compat_r _ _ z B0 Hz) as P|pose proof (Qcmult_le_compat_r 0%Qc (1 - be)%Qc z ltac:(qlra) Hz) as P];
          rewrite Qcmult_0_l in P; exact P. }
      destruct (Mul (b - (x - x'))%Qc ltac:(qlra)). destruct (Mul ((x - x') + b)%Qc ltac:(qlra)).
      destruct (Mul (b - (y - y'))%Qc ltac:(qlra)). destruct (Mul ((y - y') + b)%Qc ltac:(qlra)). unfold within. split; qlra. }
    split; apply Mix; auto; unfold within; split; qlra.
Qed.
