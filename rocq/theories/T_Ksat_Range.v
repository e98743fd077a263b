(** * Property C94: how far K-SAT outputs can grow. *)
From Verif Require Import Arr ArrFacts MinSum MinSumFacts NumFacts SpecRun SpecLiterals M_InOut P_InOut M_Runs P_Runs P_Schedule.
From Verif Require Import P_Kc_Range P_Ksat_Range T_Schedule.
From Verif Require P_Kc_Best P_Settled T_Ksat_Settled P_Ksat.
From Verif Require Import Spec Num.
Local Open Scope nat_scope.

(** Full statement: with [d] the largest number of clauses that contain the same literal, and metrics and initial messages
    between [-B] and [B], after [n] iterations the output of a variable lies between [- p (1 + d + ... + d^(n-1)) B] and
    [q (1 + d + ... + d^(n-1)) B], where [p] clauses contain it positively and [q] negatively. *)
Theorem C94_range :
  forall (iters nv nc k d : nat) (used : list nat) (metrics : list Qc) (conx : list (list nat))
         (types : list (list Z)) (V0 : list (list Qc)) (varconx : list (list nat))
         (flag : bool) (alpha B : Qc),
    2 <= k -> length metrics = nv -> shape nc k conx -> shape nc k types -> shape nc nv V0 ->
    (forall c cx tys, nth_error conx c = Some cx -> nth_error types c = Some tys -> clause_wf nv k cx tys) ->
    length varconx = nv -> Forall (fun x => x < nv) used ->
    (forall x l, nth_error varconx x = Some l -> NoDup l /\ Forall (fun c => c < nc) l) ->
    (forall j, j < nv -> ~ In j used -> nth j varconx [] = []) ->
    (flag = true -> (0 <= alpha /\ alpha <= 1)%Qc) ->
    (forall x s, x < nv -> literal_count conx types x s <= d) ->
    (0 <= B)%Qc -> (forall x, x < nv -> (- B <= nth x metrics 0 /\ nth x metrics 0 <= B)%Qc) ->
    (forall c x, c < nc -> x < nv -> (- B <= qat V0 c x /\ qat V0 c x <= B)%Qc) ->
    exists ext : list Qc,
      wrapper_ksat iters nv nc (length used) (Fin alpha) flag used (concat varconx)
        (map (@length nat) varconx) (concat conx) (concat types) (map Fin metrics) (concat (inj V0)) k
      = Some (map Fin ext) /\ length ext = nv /\
      forall x, x < nv ->
        (- (qn (literal_count conx types x true) * (qn (powers d iters) * B)) <= nth x ext 0)%Qc /\
        (nth x ext 0 <= qn (literal_count conx types x false) * (qn (powers d iters) * B))%Qc.
Proof.
  intros iters nv nc k d used metrics conx types V0 varconx flag alpha B Hk Hm Hc Ht HV Hwf Hv Hu Hin Hun Hfl Hd HB Hmet Hst.
  destruct (C49_ksat_run iters nv nc k used metrics conx types V0 varconx flag alpha)
    as (ext & V & D & M & E & L & E0 & HT & HX); auto.
  exists ext. split; [exact E|]. split; [exact L|]. intros x Hx. rewrite HX by auto.
  destruct iters as [|n]; cbn [Nat.eqb].
  - change (powers d 0) with 0. rewrite qn_0. split; qlra.
  - replace (S n - 1) with n by lia. replace (S n) with (n + 1) by lia.
    apply (total_range nv nc k d metrics conx types V0 varconx flag alpha B) with (V := V) (D := D); auto.
    + destruct Hc; auto.
    + destruct Ht; auto.
    + intros t. apply HT.
    + intros t. apply HT.
    + intros t. apply HT.
    + intros t. apply HT.
Qed.

Lemma sum_count {A} (q : A -> bool) (l : list A) U : qsum (map (fun a => if q a then U else 0%Qc) l) = (qn (length (filter q l)) * U)%Qc.
Proof.
  induction l as [|a l IH]; cbn [map filter].
  - change (qn (length [])) with 0%Qc. unfold qsum; cbn [fold_right]. ring.
  - rewrite P_Ksat.qsum_cons, IH. destruct (q a); [|ring]. cbn [length]. change (S (length (filter q l))) with (1 + length (filter q l)).
    rewrite qn_add, qn_1. ring.
Qed.

(** The bound is attained: clauses "not a, or b" such that every variable occurs negatively in [d] clauses, all metrics [m]. *)
Theorem C94_attained :
  forall (iters nv nc d : nat) (used : list nat) (conx varconx : list (list nat)) (V0 : list (list Qc)) (m : Qc),
    (0 <= m)%Qc -> shape nc 2 conx -> (forall c a b, nth_error conx c = Some [a; b] -> a < nv /\ b < nv /\ a <> b) ->
    (forall x, x < nv -> literal_count conx (repeat [-1; 1]%Z nc) x false = d) ->
    length varconx = nv -> Forall (fun x => x < nv) used -> (forall j, j < nv -> ~ In j used -> nth j varconx [] = []) ->
    (forall x l, nth_error varconx x = Some l -> NoDup l /\ forall c, In c l <-> c < nc /\ In x (nth c conx [])) ->
    shape nc nv V0 -> (forall c x, c < nc -> In x (nth c conx []) -> qat V0 c x = m) ->
    wrapper_ksat iters nv nc (length used) n0 false used (concat varconx) (map (@length nat) varconx) (concat conx)
      (concat (repeat [-1; 1]%Z nc)) (repeat (Fin m) nv) (concat (inj V0)) 2
    = Some (repeat (Fin (qn d * (qn (powers d iters) * m))%Qc) nv).
Proof.
  intros iters nv nc d used conx varconx V0 m Hm Hc Hcl Hd Hv Hu Hun Hvar HV H0.
  set (types := repeat [-1; 1]%Z nc) in *.
  assert (Ht : shape nc 2 types).
  { split; [apply repeat_length|]. apply Forall_forall. intros r I. apply repeat_spec in I. subst r; reflexivity. }
  assert (Pair : forall c, c < nc -> exists a b, nth_error conx c = Some [a; b] /\ nth_error types c = Some [-1; 1]%Z /\ a < nv /\ b < nv /\ a <> b).
  { intros c Hlt. destruct Hc as [Lc Fc]. destruct (nth_error conx c) as [cx|] eqn:G; [|apply nth_error_None in G; lia].
    rewrite Forall_forall in Fc. pose proof (Fc cx (nth_error_In _ _ G)) as L2. destruct cx as [|a [|b [|]]]; try discriminate.
    exists a, b. split; auto. split; [|apply (Hcl c); auto]. unfold types. rewrite (nth_error_nth' _ [-1; 1]%Z) by (rewrite repeat_length; auto).
    rewrite nth_repeat. reflexivity. }
  destruct (C49_ksat_run iters nv nc 2 used (repeat m nv) conx types V0 varconx false 0%Qc)
    as (ext & V & D & M & E & L & E0 & HT & HX); auto.
  { apply repeat_length. }
  { intros c cx tys G1 G2. assert (Hlt : c < nc) by (destruct Hc as [<- _]; apply nth_error_Some; congruence).
    destruct (Pair c Hlt) as (a & b & G1' & G2' & Ha & Hb & Hab). rewrite G1 in G1'; injection G1' as ->.
    rewrite G2 in G2'; injection G2' as ->. split; [reflexivity|]. split; [reflexivity|]. split.
    - repeat constructor; cbn; intuition congruence.
    - split; [auto|]. unfold pm1. auto. }
  { intros x l G. destruct (Hvar x l G) as [ND I]. split; auto. apply Forall_forall. intros c Ic. apply I, Ic. }
  assert (EM : forall t c x, c < nc -> x < nv -> qat (M t) c x = qat (D t) c x).
  { intros t c x Hlt Hx. destruct (HT t) as (_ & Q & _). rewrite Q by auto. reflexivity. }
  pose (P t := (qn (powers d t) * m)%Qc).
  assert (P0 : forall t, (0 <= P t)%Qc).
  { intros t. pose proof (Qcmult_le_compat_r 0 (qn (powers d t)) m (qn_nonneg _) Hm). unfold P. qlra. }
  assert (HL : forall c a b x, nth_error conx c = Some [a; b] -> c < nc -> has_literal conx types x false c = (a =? x)).
  { intros c a b x G Hlt. destruct (Pair c Hlt) as (a' & b' & G' & G2 & _). unfold has_literal.
    rewrite (nth_error_nth _ _ _ G), (nth_error_nth _ _ _ G2). cbn. rewrite Bool.andb_true_r, Bool.andb_false_r, Bool.orb_false_r. reflexivity. }
  assert (Hseq : forall t x l, x < nv -> NoDup l -> (forall c, In c l -> c < nc) ->
     (forall c, c < nc -> has_literal conx types x false c = true -> In c l) ->
     (forall c a b, nth_error conx c = Some [a; b] -> qat (D t) c a = P (S t) /\ qat (D t) c b = 0%Qc) ->
     qsum (map (fun c => qat (M t) c x) l) = (qn d * P (S t))%Qc).
  { intros t x l Hx ND Hlt All HDt. rewrite <- (Hd x Hx).
    rewrite (P_Settled.sum_ext _ (fun c => if has_literal conx types x false c then P (S t) else 0%Qc)).
    - rewrite sum_count. f_equal. f_equal. unfold literal_count. apply Nat.le_antisymm; apply NoDup_incl_length; try (apply NoDup_filter; auto using seq_NoDup).
      + intros c I. apply filter_In in I as [I1 I2]. apply filter_In; split; auto. apply in_seq. specialize (Hlt c I1). destruct Hc as [-> _]. lia.
      + intros c I. apply filter_In in I as [I1 I2]. apply filter_In; split; auto. apply All; auto. apply in_seq in I1. destruct Hc as [<- _]. lia.
    - intros c I. specialize (Hlt c I). destruct (Pair c Hlt) as (a & b & G & G2 & Ha & Hb & Hab). rewrite EM, (HL c a b x) by auto.
      destruct (HDt c a b G) as [D1 D2]. destruct (Nat.eqb_spec a x) as [->|Na]; auto.
      destruct (Nat.eq_dec b x) as [->|Nb]; auto. destruct (HT t) as (Q & _). destruct (Q c _ _ G G2) as [_ Z]. apply Z; auto. cbn; intuition. }
  assert (DV : forall t, (forall c a b, nth_error conx c = Some [a; b] -> (0 <= qat (V t) c a)%Qc /\ qat (V t) c b = P (S t)) ->
     forall c a b, nth_error conx c = Some [a; b] -> qat (D t) c a = P (S t) /\ qat (D t) c b = 0%Qc).
  { intros t VI c a b G. assert (Hlt : c < nc) by (destruct Hc as [<- _]; apply nth_error_Some; congruence).
    destruct (Pair c Hlt) as (a' & b' & G' & G2 & _). clear a' b' G'. destruct (VI c a b G) as [Va Vb].
    destruct (HT t) as (Q & _). destruct (Q c _ _ G G2) as [Z _]. cbn [map signs] in Z.
    pose proof (minsum_message_unique _ _ _ _ _ (Z 0 a eq_refl) (T_Ksat_Settled.pair_first false true _ _)) as X1.
    pose proof (minsum_message_unique _ _ _ _ _ (Z 1 b eq_refl) (T_Ksat_Settled.pair_second true false _ _)) as X2.
    injection X1 as ->. injection X2 as ->. unfold T_Ksat_Settled.pair_message, T_Ksat_Settled.other_min.
    rewrite Vb. pose proof (P0 (S t)) as PP. split.
    - destruct (qltb_spec (P (S t)) 0); [qlra|ring].
    - destruct (qltb_spec (qat (V t) c a) 0); [qlra|ring]. }
  assert (VI : forall t c a b, nth_error conx c = Some [a; b] -> (0 <= qat (V t) c a)%Qc /\ qat (V t) c b = P (S t)).
  { induction t as [|t IH]; intros c a b G.
    - assert (Hlt : c < nc) by (destruct Hc as [<- _]; apply nth_error_Some; congruence).
      rewrite E0, !H0; auto; rewrite ?(nth_error_nth _ _ _ G); cbn; auto. split; auto. unfold P, powers. cbn. rewrite qn_1. ring.
    - assert (Hlt : c < nc) by (destruct Hc as [<- _]; apply nth_error_Some; congruence).
      destruct (Hcl c a b G) as (Ha & Hb & Hab). replace (S t) with (t + 1) by lia.
      destruct (HT t) as (_ & _ & Q & _). pose proof (DV t IH) as DI.
      assert (Get : forall x, x < nv -> In x [a; b] -> exists l, nth_error varconx x = Some l /\ In c l).
      { intros x Hx Ix. destruct (nth_error varconx x) as [l|] eqn:G1; [|apply nth_error_None in G1; lia]. exists l. split; auto.
        apply (Hvar x l G1). split; auto. rewrite (nth_error_nth _ _ _ G). exact Ix. }
      destruct (Get a Ha) as (la & Gla & Ila); [cbn; auto|]. destruct (Get b Hb) as (lb & Glb & Ilb); [cbn; auto|].
      rewrite (Q a la c Gla Ila), (Q b lb c Glb Ilb).
      assert (Nth : forall x, x < nv -> nth x (repeat m nv) 0%Qc = m).
      { intros x Hx. rewrite (nth_indep _ 0%Qc m) by (rewrite repeat_length; auto). apply nth_repeat. }
      rewrite !Nth by auto. destruct (Hvar a la Gla) as [NDa Ia]. destruct (Hvar b lb Glb) as [NDb Ib].
      assert (All : forall x l, nth_error varconx x = Some l -> forall c0, c0 < nc -> has_literal conx types x false c0 = true -> In c0 l).
      { intros x l G1 c0 H1 H2. apply (Hvar x l G1). split; auto. destruct (Pair c0 H1) as (a0 & b0 & G0 & _). rewrite (HL c0 a0 b0 x) in H2 by auto.
        apply Nat.eqb_eq in H2. rewrite (nth_error_nth _ _ _ G0). cbn; auto. }
      split.
      + assert (0 <= qsum (map (fun c0 => qat (M t) c0 a) (others c la)))%Qc; [|qlra].
        apply P_Kc_Best.qsum_ge0. intros c0 I0. apply filter_In in I0 as [I0 _]. destruct (proj1 (Ia c0) I0) as [H1 H2].
        destruct (Pair c0 H1) as (a0 & b0 & G0 & _ & _). rewrite (nth_error_nth _ _ _ G0) in H2. destruct (DI c0 a0 b0 G0) as [D1 D2].
        rewrite EM by auto. pose proof (P0 (S t)). destruct H2 as [->|[->|[]]]; rewrite ?D1, ?D2; qlra.
      + pose proof (P_Settled.sum_split_one (f := fun c0 => qat (M t) c0 b) c lb NDb Ilb) as Sp.
        rewrite (Hseq t b lb) in Sp; auto; [|intros c0 I0; apply Ib, I0|apply All; auto].
        rewrite EM in Sp by auto. destruct (DI c a b G) as [_ D2]. rewrite D2, Qcplus_0_l in Sp. rewrite <- Sp.
        unfold P. replace (S (t + 1)) with (S (S t)) by lia. rewrite (powers_S d (S t)), qn_add, qn_mul, qn_1. ring. }
  rewrite <- (repeat_length m nv) in E at 1. rewrite !repeat_length in E.
  rewrite map_repeat in E. unfold n0. rewrite E. f_equal.
  rewrite <- (map_repeat Fin). f_equal.
  apply (nth_ext _ _ 0%Qc (qn d * (qn (powers d iters) * m))%Qc); [rewrite L, repeat_length; reflexivity|].
  intros x Hx. rewrite L in Hx. rewrite nth_repeat, HX by auto. destruct iters as [|n]; cbn [Nat.eqb].
  - change (powers d 0) with 0. rewrite qn_0. ring.
  - replace (S n - 1) with n by lia. apply (Hseq n x (seq 0 nc)); auto using seq_NoDup.
    + intros c I. apply in_seq in I; lia.
    + intros c H1 _. apply in_seq; lia.
Qed.

(** For every [d] there is such a formula: a clause for every ordered pair of [d + 1] variables. *)
Definition all_pairs (n : nat) : list (list nat) :=
  flat_map (fun a => map (fun b => [a; b]) (others a (seq 0 n))) (seq 0 n).
Definition clauses_of (conx : list (list nat)) (x : nat) : list nat :=
  filter (fun c => existsb (Nat.eqb x) (nth c conx [])) (seq 0 (length conx)).

Lemma filter_positions {A} (f : A -> bool) (l : list A) df :
  length (filter (fun c => f (nth c l df)) (seq 0 (length l))) = length (filter f l).
Proof.
  induction l as [|a l IH]; [reflexivity|]. cbn [length seq filter nth]. rewrite <- seq_shift.
  assert (E : length (filter (fun c => f (nth c (a :: l) df)) (map S (seq 0 (length l)))) = length (filter f l)).
  { rewrite <- IH. generalize (seq 0 (length l)). intros m. induction m as [|c m IHm]; [reflexivity|].
    cbn [map filter nth]. destruct (f (nth c l df)); cbn [length]; cbn [nth] in IHm; lia. }
  cbn [nth] in E. destruct (f a); cbn [length]; rewrite E; reflexivity.
Qed.
Lemma filter_flat {A C} (g : C -> bool) (h : A -> list C) l :
  length (filter g (flat_map h l)) = list_sum (map (fun a => length (filter g (h a))) l).
Proof.
  induction l as [|a l IH]; [reflexivity|]. cbn [flat_map map]. rewrite filter_app, app_length, IH. reflexivity.
Qed.
Lemma others_seq d x : x < S d -> length (others x (seq 0 (S d))) = d.
Proof.
  intros H. assert (E : length (filter (fun b => b =? x) (seq 0 (S d))) = 1).
  { rewrite (P_Settled.filter_one x); auto using seq_NoDup; [apply in_seq; lia|]. intros b _. rewrite Nat.eqb_eq. split; auto. }
  assert (G : forall l, length (filter (fun b => b =? x) l) + length (others x l) = length l).
  { induction l as [|b l IH]; [reflexivity|]. unfold others in *. cbn [filter]. destruct (b =? x); cbn [negb length]; lia. }
  specialize (G (seq 0 (S d))). rewrite seq_length in G. lia.
Qed.
Lemma sum_one x d v : x < d -> list_sum (map (fun a => if a =? x then v else 0) (seq 0 d)) = v.
Proof.
  intros H. assert (G : forall l, list_sum (map (fun a => if a =? x then v else 0) l) = length (filter (fun a => a =? x) l) * v).
  { induction l as [|a l IH]; [reflexivity|]. cbn [map filter]. change (list_sum (?u :: ?w)) with (u + list_sum w). rewrite IH.
    destruct (a =? x); cbn [length]; lia. }
  rewrite G. rewrite (P_Settled.filter_one x); auto using seq_NoDup; [cbn; lia|apply in_seq; lia|]. intros b _. rewrite Nat.eqb_eq. split; auto.
Qed.
Lemma sum_rest x l : list_sum (map (fun a => if a =? x then 0 else 1) l) = length (others x l).
Proof.
  induction l as [|a l IH]; [reflexivity|]. cbn [map]. change (list_sum (?u :: ?w)) with (u + list_sum w). rewrite IH.
  unfold others. cbn [filter]. destruct (a =? x); reflexivity.
Qed.
Lemma all_pairs_count d x s : x < S d -> literal_count (all_pairs (S d)) (repeat [-1; 1]%Z (length (all_pairs (S d)))) x s = d.
Proof.
  intros Hx. unfold literal_count.
  pose (g := fun cx : list nat => existsb (fun p => (fst p =? x) && Bool.eqb (snd p) s) (combine cx [false; true])).
  rewrite (filter_ext_in _ (fun c => g (nth c (all_pairs (S d)) []))).
  2:{ intros c I. apply in_seq in I. unfold has_literal, g. rewrite (nth_indep _ [] [-1; 1]%Z) by (rewrite repeat_length; lia).
      rewrite nth_repeat. reflexivity. }
  rewrite filter_positions. unfold all_pairs. rewrite filter_flat.
  rewrite (map_ext_in _ (fun a => if s then if a =? x then 0 else 1 else if a =? x then d else 0)).
  - destruct s; [rewrite sum_rest, others_seq; auto|apply sum_one; auto].
  - intros a Ia. apply in_seq in Ia.
    assert (Gm : forall l, length (filter g (map (fun b => [a; b]) l)) = length (filter (fun b => g [a; b]) l)).
    { induction l as [|b l IH]; [reflexivity|]. cbn [map filter]. destruct (g [a; b]); cbn [length]; lia. }
    rewrite Gm. destruct s.
    + rewrite (filter_ext _ (fun b => b =? x)).
      2:{ intros b. unfold g. cbn. rewrite Bool.andb_false_r, Bool.andb_true_r, Bool.orb_false_r. reflexivity. }
      destruct (Nat.eqb_spec a x) as [->|N].
      * assert (Z : filter (fun b => b =? x) (others x (seq 0 (S d))) = []); [|rewrite Z; reflexivity].
        unfold others. generalize (seq 0 (S d)). intros l. induction l as [|b l IH]; [reflexivity|]. cbn [filter].
        destruct (b =? x) eqn:Eb; cbn [negb filter]; auto. rewrite Eb. exact IH.
      * rewrite (P_Settled.filter_one x); auto.
        -- apply NoDup_filter, seq_NoDup.
        -- apply filter_In. split; [apply in_seq; lia|]. apply Bool.negb_true_iff, Nat.eqb_neq. auto.
        -- intros b _. rewrite Nat.eqb_eq. split; auto.
    + rewrite (filter_ext _ (fun b => a =? x)).
      2:{ intros b. unfold g. cbn. rewrite Bool.andb_false_r, Bool.andb_true_r, Bool.orb_false_r. reflexivity. }
      destruct (a =? x).
      * rewrite (proj2 (P_Settled.filter_all (fun _ => true) _)) by auto. apply others_seq. lia.
      * rewrite P_Settled.filter_none by auto. reflexivity.
Qed.

Theorem C94_tight : forall (d n : nat) (m : Qc), (0 <= m)%Qc ->
  let conx := all_pairs (S d) in let nc := length conx in let varconx := map (clauses_of conx) (seq 0 (S d)) in
  (forall x s, x < S d -> literal_count conx (repeat [-1; 1]%Z nc) x s = d) /\
  wrapper_ksat n (S d) nc (S d) n0 false (seq 0 (S d)) (concat varconx) (map (@length nat) varconx) (concat conx)
    (concat (repeat [-1; 1]%Z nc)) (repeat (Fin m) (S d)) (concat (repeat (repeat (Fin m) (S d)) nc)) 2
  = Some (repeat (Fin (qn d * (qn (powers d n) * m))%Qc) (S d)).
Proof.
  intros d n m Hm conx nc varconx. split; [intros; apply all_pairs_count; auto|].
  replace (repeat (repeat (Fin m) (S d)) nc) with (inj (repeat (repeat m (S d)) nc)).
  2:{ unfold inj. rewrite map_repeat, map_repeat. reflexivity. }
  assert (In_pairs : forall cx, In cx conx -> exists a b, cx = [a; b] /\ a < S d /\ b < S d /\ a <> b).
  { intros cx I. unfold conx, all_pairs in I. apply in_flat_map in I as (a & Ia & I). apply in_map_iff in I as (b & <- & Ib).
    apply filter_In in Ib as [Ib N]. apply in_seq in Ia. apply in_seq in Ib. apply Bool.negb_true_iff, Nat.eqb_neq in N.
    exists a, b. repeat split; auto; lia. }
  pose proof (C94_attained n (S d) nc d (seq 0 (S d)) conx varconx (repeat (repeat m (S d)) nc) m Hm) as C.
  rewrite seq_length in C. apply C.
  - split; [reflexivity|]. apply Forall_forall. intros cx I. destruct (In_pairs cx I) as (a & b & -> & _). reflexivity.
  - intros c a b G. destruct (In_pairs _ (nth_error_In _ _ G)) as (a' & b' & E & Ha & Hb & N). injection E as -> ->. auto.
  - intros x Hx. apply all_pairs_count; auto.
  - unfold varconx. rewrite map_length. apply seq_length.
  - apply Forall_forall. intros x I. apply in_seq in I. lia.
  - intros j Hj N. exfalso. apply N, in_seq. lia.
  - intros x l G. unfold varconx in G. rewrite nth_error_map in G. destruct (nth_error (seq 0 (S d)) x) as [y|] eqn:Gy; [|discriminate].
    injection G as <-. assert (y = x).
    { assert (Hx : x < S d) by (rewrite <- (seq_length (S d) 0); apply nth_error_Some; congruence).
      apply (nth_error_nth _ _ 0) in Gy. rewrite seq_nth in Gy by auto. lia. }
    subst y. split; [apply NoDup_filter, seq_NoDup|]. intros c. unfold clauses_of. rewrite filter_In, in_seq, existsb_exists. split.
    + intros (H1 & y & Iy & Ey). apply Nat.eqb_eq in Ey. subst y. split; auto. lia.
    + intros (H1 & I). split; [unfold nc in H1; lia|]. exists x. rewrite Nat.eqb_refl. auto.
  - split; [apply repeat_length|]. apply Forall_forall. intros r I. apply repeat_spec in I. subst r. apply repeat_length.
  - intros c x Hc Ix. assert (I : In (nth c conx []) conx) by (apply nth_In; auto).
    destruct (In_pairs _ I) as (a & b & E & Ha & Hb & _). rewrite E in Ix. unfold qat.
    rewrite (nth_indep _ [] (repeat m (S d))) by (rewrite repeat_length; auto). rewrite nth_repeat.
    rewrite (nth_indep _ 0%Qc m); [apply nth_repeat|]. rewrite repeat_length. destruct Ix as [<-|[<-|[]]]; auto.
Qed.

(** ** Examples *)
(** the formula of [C49_example]: no literal in more than two clauses, metrics between -3 and 3 *)
Example C94_example :
  let conx := [[0; 1; 2]; [1; 2; 3]; [2; 3; 0]] in
  let types := [[1; -1; 1]; [-1; -1; 1]; [1; 1; -1]]%Z in
  let V0 := map (map zq) [[1; -2; 3; 0]; [0; -2; 3; -1]; [1; 0; 3; -1]]%Z in
  map (fun x => (literal_count conx types x true, literal_count conx types x false)) [0; 1; 2; 3] = [(1, 1); (0, 2); (2, 1); (2, 0)] /\
  (forall x, x < 4 -> (- zq 3 <= nth x (map zq [1; -2; 3; -1]%Z) 0 /\ nth x (map zq [1; -2; 3; -1]%Z) 0 <= zq 3)%Qc) /\
  (forall c x, c < 3 -> x < 4 -> (- zq 3 <= qat V0 c x /\ qat V0 c x <= zq 3)%Qc) /\
  map (powers 2) [0; 1; 2; 3] = [0; 1; 3; 7].
Proof.
  cbn zeta. split; [reflexivity|]. split; [|split; [|reflexivity]].
  - intros x Hx. do 4 (destruct x as [|x]; [split; discriminate|]). lia.
  - intros c x Hc Hx. do 3 (destruct c as [|c]; [do 4 (destruct x as [|x]; [split; discriminate|]); lia|]). lia.
Qed.
(** three variables, six clauses: the outputs double and double again *)
Example C94_growth_example :
  all_pairs 3 = [[0; 1]; [0; 2]; [1; 0]; [1; 2]; [2; 0]; [2; 1]] /\
  map (fun n => option_map (map view)
    (wrapper_ksat n 3 6 3 n0 false [0; 1; 2] [0; 1; 2; 4; 0; 2; 3; 5; 1; 3; 4; 5] [4; 4; 4] (concat (all_pairs 3))
      (concat (repeat [-1; 1]%Z 6)) (repeat n1 3) (repeat n1 18) 2)) [1; 2; 3; 4; 5]
  = map (fun z => Some [VFin z; VFin z; VFin z]) [2%Q; 6%Q; 14%Q; 30%Q; 62%Q].
Proof. split; vm_compute; reflexivity. Qed.
(** The factor of the filter matters: variable 0 occurs only negatively, so that its output should be at least 0. *)
Example C94_factor_refuted :
  literal_count [[0; 1]] [[-1; 1]%Z] 0 true = 0 /\
  option_map (map view) (wrapper_ksat 1 2 1 2 (zn 2) true [0; 1] [0; 0] [1; 1] [0; 1] [-1; 1]%Z [n1; n1] [n1; n1] 2)
  = Some [VFin (-1); VFin 0].
Proof. split; vm_compute; reflexivity. Qed.

Print Assumptions C94_range.
Print Assumptions C94_attained.
Print Assumptions C94_tight.
Print Assumptions C94_factor_refuted.
