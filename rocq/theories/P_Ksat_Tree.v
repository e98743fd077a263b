(** * K-SAT runs on formulas without cycles *)
From Coq Require Import Permutation.
From Verif Require Import Num NumFacts Arr ArrFacts Spec SpecRun SpecForest MinSum MinSumFacts P_Ksat P_Tsp_Sched P_Tsp_Order.
From Verif Require Import M_Tsp_Run M_Ksat_Py P_Ksat_Py P_PyRef_Ksat P_Forest M_InOut M_Runs P_Runs P_Schedule T_Schedule.
Local Open Scope nat_scope.

(** ** Configurations as lists and as functions *)
Lemma list_as_map cx : NoDup cx -> forall x : list bool, length x = length cx -> exists a : nat -> bool, map a cx = x.
Proof.
  induction 1 as [|v cx N ND IH]; intros [|b x] L; try discriminate.
  - exists (fun _ => false). reflexivity.
  - destruct (IH x) as (a & E); [cbn in L; lia|]. exists (fun u => if u =? v then b else a u). cbn.
    rewrite Nat.eqb_refl. f_equal. rewrite <- E. apply map_ext_in. intros u Hu.
    destruct (Nat.eqb_spec u v) as [->|]; [contradiction|reflexivity].
Qed.
Lemma as_map {A} (d : A) l n : length l = n -> l = map (fun u => nth u l d) (seq 0 n).
Proof.
  intros <-. induction l as [|a l IH]; [reflexivity|]. cbn [length seq map nth]. f_equal.
  rewrite <- seq_shift, map_map. exact IH.
Qed.
Lemma total_map (nu : nat -> Qc) (a : nat -> bool) l :
  total (map nu l) (map a l) = qsum (map (fun u => if a u then nu u else 0%Qc) l).
Proof. induction l as [|u l IH]; [reflexivity|]. cbn [map total]. rewrite qsum_cons, IH. reflexivity. Qed.
Lemma rest_map nv cx j v (nu : nat -> Qc) (a : nat -> bool) : NoDup cx -> Forall (fun u => u < nv) cx ->
  nth_error cx j = Some v ->
  rest j (map nu cx) (map a cx) = fsum (seq 0 nv) (fun u => mem u cx && negb (u =? v)) nu a.
Proof.
  intros ND HB Hj. unfold rest, fsum. rewrite total_map.
  rewrite (nth_error_nth _ _ _ (map_nth_error a _ _ Hj)), (nth_error_nth _ _ _ (map_nth_error nu _ _ Hj)).
  pose proof (nth_error_In _ _ Hj) as Iv. rewrite (qsum_others _ v cx ND Iv).
  rewrite (qsum_outside _ nv (others v cx)).
  - assert (E : qsum (map (fun u => if mem u cx && negb (u =? v) && a u then nu u else 0%Qc) (others v cx))
              = qsum (map (fun u => if a u then nu u else 0%Qc) (others v cx))).
    { f_equal. apply map_ext_in. intros u Hu. unfold others in Hu. apply filter_In in Hu as (Hu & Nu).
      rewrite (proj2 (mem_In u cx) Hu), Nu. reflexivity. }
    rewrite E. qlra.
  - apply NoDup_filter; auto.
  - intros c Hc. unfold others in Hc. apply filter_In in Hc as (Hc & _). rewrite Forall_forall in HB. auto.
  - intros c Hc Nc. destruct (mem c cx) eqn:E1; [|reflexivity]. destruct (Nat.eqb_spec c v) as [->|Ne]; [reflexivity|].
    exfalso. apply Nc. unfold others. apply filter_In. split; [apply mem_In; auto|].
    destruct (Nat.eqb_spec c v); [congruence|reflexivity].
Qed.

Lemma best_bst al nv cx j v (nu : nat -> Qc) b q : NoDup cx -> Forall (fun u => u < nv) cx -> nth_error cx j = Some v ->
  best al (map nu cx) j b (Fin q) <->
  bst (seq 0 nv) (fun a => al (map a cx)) (fun u => mem u cx && negb (u =? v)) nu v b q.
Proof.
  intros ND HB Hj. unfold best, bst, is_min_of.
  assert (N : forall a : nat -> bool, nth_error (map a cx) j = Some b <-> a v = b).
  { intros a. rewrite (map_nth_error a _ _ Hj). split; [injection 1; auto|intros ->; auto]. }
  split; intros ((x & Hx) & Lo).
  - destruct Hx as (X1 & X2 & X3 & X4). rewrite map_length in X1. destruct (list_as_map cx ND x X1) as (a & <-). split.
    + exists a. split; [auto|]. apply N in X3. split; [auto|]. rewrite X4. apply rest_map; auto.
    + intros c C1 C2. apply Lo. exists (map c cx). split; [rewrite !map_length; auto|]. split; [auto|].
      split; [apply N; auto|]. symmetry. apply rest_map; auto.
  - destruct Hx as (X1 & X2 & X3). split.
    + exists (map x cx). split; [rewrite !map_length; auto|]. split; [auto|]. split; [apply N; auto|].
      rewrite X3. symmetry. apply rest_map; auto.
    + intros r (y & Y1 & Y2 & Y3 & ->). rewrite map_length in Y1. destruct (list_as_map cx ND y Y1) as (a & <-).
      rewrite (rest_map nv) with (v := v) by auto. apply Lo; [auto|]. apply N; auto.
Qed.
Lemma minsum_msg al nv cx j v (nu : nat -> Qc) d : NoDup cx -> Forall (fun u => u < nv) cx -> nth_error cx j = Some v ->
  minsum_message al (map nu cx) j (Fin d) <->
  msg (seq 0 nv) (fun a => al (map a cx)) (fun u => mem u cx && negb (u =? v)) nu v d.
Proof.
  intros ND HB Hj. split.
  - intros (v1 & v0 & B1 & B0 & E).
    destruct v1 as [q1| | |]; [|destruct v0; [discriminate E| | |]; try discriminate E; destruct B0|destruct B1|destruct B1].
    destruct v0 as [q0| | |]; [|discriminate E|destruct B0|destruct B0].
    exists q1, q0. split; [apply (best_bst al nv cx j); auto|]. split; [apply (best_bst al nv cx j); auto|].
    cbn in E. injection E; auto.
  - intros (q1 & q0 & B1 & B0 & ->). exists (Fin q1), (Fin q0).
    split; [apply (best_bst al nv cx j v); auto|]. split; [apply (best_bst al nv cx j v); auto|]. reflexivity.
Qed.

(** ** The formula *)
Definition clause_at (conx : list (list nat)) (types : list (list Z)) (c : nat) (a : nat -> bool) : Prop :=
  clause_ok (signs (nth c types [])) (map a (nth c conx [])).

Lemma clause_at_ext conx types c a b : (forall u, In u (nth c conx []) -> a u = b u) ->
  clause_at conx types c a -> clause_at conx types c b.
Proof. intros H. unfold clause_at. rewrite (map_ext_in a b); auto. Qed.

Lemma satisfies_sat nv conx types idx a : length types = length conx -> Permutation idx (seq 0 (length conx)) ->
  (forall c u, In u (nth c conx []) -> u < nv) ->
  satisfies conx types (map a (seq 0 nv)) <-> sat (clause_at conx types) idx a.
Proof.
  intros L P HB.
  assert (E : forall c, map (fun v => nth v (map a (seq 0 nv)) false) (nth c conx []) = map a (nth c conx [])).
  { intros c. apply map_ext_in. intros u Hu. apply HB in Hu.
    rewrite (nth_indep _ false (a 0)) by (rewrite map_length, seq_length; auto).
    rewrite map_nth, seq_nth by auto. reflexivity. }
  split.
  - intros H c Hc. assert (Lc : c < length conx).
    { apply (Permutation_in _ P), in_seq in Hc. lia. }
    unfold clause_at. rewrite <- E. apply (H c); apply nth_error_nth'; lia.
  - intros H c cx tys Hc Ht. assert (Lc : c < length conx) by (apply nth_error_Some; congruence).
    assert (I : In c idx). { apply (Permutation_in _ (Permutation_sym P)), in_seq. lia. }
    specialize (H c I). unfold clause_at in H. rewrite <- E in H.
    rewrite (nth_error_nth _ _ _ Hc), (nth_error_nth _ _ _ Ht) in H. exact H.
Qed.

(** the solver's output, for any costs that agree with the metrics on the variables of clauses *)
Lemma tree_core iters nv nc k used (metrics : list Qc) conx types (V0 : list (list Qc)) varconx idx :
  2 <= k -> length metrics = nv -> shape nc k conx -> shape nc k types -> shape nc nv V0 ->
  (forall c cx tys, nth_error conx c = Some cx -> nth_error types c = Some tys -> clause_wf nv k cx tys) ->
  length varconx = nv -> Forall (fun x => x < nv) used ->
  (forall x l, nth_error varconx x = Some l -> NoDup l /\ forall c, In c l <-> In x (nth c conx [])) ->
  (forall j, j < nv -> ~ In j used -> nth j varconx [] = []) ->
  Permutation idx (seq 0 nc) -> forest (fun c => nth c conx []) idx ->
  nc < iters \/ (nc <= iters /\ forall c x, In x (nth c conx []) -> qat V0 c x = nth x metrics 0%Qc) ->
  forall alpha, exists ext,
    wrapper_ksat iters nv nc (length used) (Fin alpha) false used (concat varconx)
      (map (@length nat) varconx) (concat conx) (concat types) (map Fin metrics) (concat (inj V0)) k
      = Some (map Fin ext) /\ length ext = nv /\
    forall w mu, w < nv -> (forall c u, In u (nth c conx []) -> mu u = nth u metrics 0%Qc) ->
      gmsg (seq 0 nv) (clause_at conx types) idx mu w (nth w ext 0%Qc).
Proof.
  intros Hk Lm Sc St SV Wf Lv Hu Hin Hun P F Hit alpha.
  destruct Sc as (Lc & Fc). destruct St as (Lt & Ft).
  assert (HB : forall c u, In u (nth c conx []) -> c < nc /\ u < nv).
  { intros c u Hu'. destruct (Nat.lt_ge_cases c nc) as [Lc'|G].
    - split; [auto|]. destruct (Wf c (nth c conx []) (nth c types [])) as (_ & _ & _ & B & _); try (apply nth_error_nth'; lia).
      rewrite Forall_forall in B. auto.
    - rewrite nth_overflow in Hu' by lia. destruct Hu'. }
  destruct (C49_ksat_run iters nv nc k used metrics conx types V0 varconx false alpha)
    as (ext & V & D & M & E & Le & E0 & HT & HX); auto.
  { split; auto. } { split; auto. }
  { intros x l Hx. destruct (Hin x l Hx) as (A & B). split; [auto|]. apply Forall_forall. intros c Hc.
    apply B in Hc. apply HB in Hc. tauto. }
  exists ext. split; [exact E|split; [exact Le|]]. intros w mu Hw Hmu.
  assert (MD : forall t c x, c < nc -> x < nv -> qat (M t) c x = qat (D t) c x).
  { intros t c x Hc Hx. destruct (HT t) as (_ & A & _). rewrite A by auto. reflexivity. }
  assert (Ic : forall c, In c idx <-> c < nc).
  { intros c. split; intros H.
    - apply (Permutation_in _ P), in_seq in H. lia.
    - apply (Permutation_in _ (Permutation_sym P)), in_seq. lia. }
  assert (ND : NoDup idx) by (eapply Permutation_NoDup; [apply Permutation_sym, P|apply seq_NoDup]).
  assert (Off : forall t c x, c < nc -> x < nv -> ~ In x (nth c conx []) -> qat (D t) c x = 0%Qc).
  { intros t c x Hc Hx N. destruct (HT t) as (A & _).
    destruct (A c (nth c conx []) (nth c types [])) as (_ & B); try (apply nth_error_nth'; lia). auto. }
  set (D' := fun t c x => if x <? nv then qat (D t) c x else 0%Qc).
  assert (Sum : forall t x, x < nv -> qsum (map (fun c => qat (M t) c x) (seq 0 nc)) = qsum (map (fun c => D' t c x) idx)).
  { intros t x Hx. transitivity (qsum (map (fun c => qat (M t) c x) idx)).
    - apply qsum_perm, Permutation_map, Permutation_sym, P.
    - f_equal. apply map_ext_in. intros c Hc. apply Ic in Hc. unfold D'. destruct (Nat.ltb_spec x nv); [|lia].
      apply MD; auto. }
  assert (Sch : sched (seq 0 nv) (fun c => nth c conx []) (clause_at conx types) idx
            (fun t => qat (V t)) D' (fun _ => mu)).
  { split.
    - intros t c v Hc Hv. apply Ic in Hc. destruct (HT t) as (A & _).
      destruct (A c (nth c conx []) (nth c types [])) as (B & _); try (apply nth_error_nth'; lia).
      apply In_nth_error in Hv as (j & Hj). specialize (B j v Hj).
      destruct (Wf c (nth c conx []) (nth c types [])) as (_ & _ & W1 & W2 & _); try (apply nth_error_nth'; lia).
      apply (minsum_msg _ nv) with (v := v) in B; auto. unfold D'.
      assert (v < nv) by (apply nth_error_In in Hj; apply HB in Hj; tauto).
      destruct (Nat.ltb_spec v nv); [|lia]. exact B.
    - intros t c v Hc Hv. apply Ic in Hc. unfold D'. destruct (Nat.ltb_spec v nv); [|reflexivity]. apply Off; auto.
    - intros t c v Hc Hv. destruct (HB _ _ Hv) as (_ & Lv'). destruct (HT t) as (_ & _ & A & _).
      assert (Hx : nth_error varconx v = Some (nth v varconx [])) by (apply nth_error_nth'; lia).
      destruct (Hin v _ Hx) as (N1 & N2). rewrite (A v _ c Hx) by (apply N2; auto).
      rewrite (Hmu c v Hv). f_equal.
      rewrite (qsum_filter_zero (fun c' => D' t c' v) (fun c' => mem c' (nth v varconx []))).
      2:{ intros a Ha Ea. unfold others in Ha. apply filter_In in Ha as (Ha & _). apply Ic in Ha. unfold D'.
          destruct (Nat.ltb_spec v nv); [|reflexivity]. apply Off; auto. intros X. apply N2, mem_In in X. congruence. }
      transitivity (qsum (map (fun c' => D' t c' v) (others c (nth v varconx [])))).
      + f_equal. apply map_ext_in. intros c' Hc'. unfold others in Hc'. apply filter_In in Hc' as (Hc' & _).
        apply N2, HB in Hc'. unfold D'. destruct (Nat.ltb_spec v nv); [|lia]. apply MD; tauto.
      + apply qsum_perm, Permutation_map, NoDup_Permutation; [apply NoDup_filter; auto|apply NoDup_filter, NoDup_filter; auto|].
        intros x. unfold others. rewrite !filter_In, mem_In. split.
        * intros (H1 & H2). split; [split; [|auto]|auto]. apply Ic. apply N2, HB in H1. tauto.
        * tauto. }
  pose proof (seq_NoDup nv 0) as NU.
  assert (OE : forall c a b, (forall u, In u (nth c conx []) -> a u = b u) -> clause_at conx types c a -> clause_at conx types c b)
    by (intros; eapply clause_at_ext; eauto).
  assert (CU : forall c u, In u (nth c conx []) -> In u (seq 0 nv)).
  { intros c u Hc. apply HB in Hc. apply in_seq. lia. }
  assert (Ln : length idx = nc) by (rewrite (Permutation_length P), seq_length; auto).
  rewrite HX by auto. destruct (Nat.eqb_spec iters 0) as [Z|NZ].
  { destruct Hit as [|(Hit & _)]; [lia|]. assert (nc = 0) by lia. destruct idx as [|]; [|cbn in Ln; lia]. apply gmsg_nil. }
  rewrite Sum by auto.
  destruct Hit as [Hit|(Hit & HV0)].
  - (* any initial messages: they are gone after one round *)
    assert (G : gmsg (seq 0 nv) (clause_at conx types) idx mu w (qsum (map (fun c => D' (iters - 2 + 1) c w) idx))).
    { destruct (Nat.eq_dec nc 0) as [Z|Z].
      { destruct idx as [|]; [|cbn in Ln; lia]. apply gmsg_nil. }
      apply (forest_exact _ NU _ _ OE CU idx F ND _ _ _ mu w (sched_shift _ _ _ _ _ _ _ Sch)); [auto| |lia].
      intros c u Hc Hu' Nu O. rewrite (s_in _ _ _ _ _ _ _ Sch 0 c u Hc Hu').
      rewrite (qsum_none (fun c' => D' 0 c' u)); [qlra|]. intros c' Hc'. unfold others in Hc'.
      apply filter_In in Hc' as (Hc' & Ne). apply (s_off _ _ _ _ _ _ _ Sch); [auto|]. intros X. specialize (O c' Hc' X).
      subst c'. rewrite Nat.eqb_refl in Ne. discriminate. }
    destruct (Nat.eq_dec nc 0) as [Z|Z].
    { destruct idx as [|]; [|cbn in Ln; lia]. apply gmsg_nil. }
    replace (iters - 1) with (iters - 2 + 1) by lia. exact G.
  - apply (forest_exact _ NU _ _ OE CU idx F ND _ _ _ mu w Sch); [auto| |lia].
    intros c u Hc Hu' _ _. cbn. rewrite E0, HV0, (Hmu c u) by auto. reflexivity.
Qed.

(** messages of the formula in terms of assignments as lists *)
Lemma gmsg_minsum nv nc k (metrics : list Qc) conx types idx w d :
  length metrics = nv -> shape nc k conx -> shape nc k types ->
  (forall c cx tys, nth_error conx c = Some cx -> nth_error types c = Some tys -> clause_wf nv k cx tys) ->
  Permutation idx (seq 0 nc) -> w < nv ->
  gmsg (seq 0 nv) (clause_at conx types) idx (fun u => nth u metrics 0%Qc) w d ->
  minsum_message (satisfies conx types) metrics w (Fin d).
Proof.
  intros Lm Sc St Wf P Hw G. pose proof (proj1 Sc) as Lc. pose proof (proj1 St) as Lt.
  pose proof (as_map 0%Qc metrics nv Lm) as Em.
  rewrite Em at 1. apply (minsum_msg _ nv) with (v := w).
  - apply seq_NoDup.
  - apply Forall_forall. intros u Hu'. apply in_seq in Hu'. lia.
  - rewrite (nth_error_nth' _ 0) by (rewrite seq_length; auto). rewrite seq_nth by auto. reflexivity.
  - assert (HB : forall c u, In u (nth c conx []) -> u < nv).
    { intros c u Hc. destruct (Nat.lt_ge_cases c nc) as [Lc'|X].
      - destruct (Wf c (nth c conx []) (nth c types [])) as (_ & _ & _ & B & _); try (apply nth_error_nth'; lia).
        rewrite Forall_forall in B. auto.
      - rewrite nth_overflow in Hc by lia. destruct Hc. }
    assert (SS : forall a, satisfies conx types (map a (seq 0 nv)) <-> sat (clause_at conx types) idx a).
    { intros a. apply satisfies_sat; [congruence|rewrite Lc; auto|auto]. }
    assert (FF : forall mu a, fsum (seq 0 nv) (notw w) mu a = fsum (seq 0 nv) (fun u => mem u (seq 0 nv) && negb (u =? w)) mu a).
    { intros mu a. apply fsum_ext. intros u Hu'. rewrite (proj2 (mem_In _ _) Hu'). reflexivity. }
    destruct G as (q1 & q0 & B1 & B0 & ->). exists q1, q0.
    assert (T : forall b q, bst (seq 0 nv) (sat (clause_at conx types) idx) (notw w) (fun u => nth u metrics 0%Qc) w b q ->
      bst (seq 0 nv) (fun a => satisfies conx types (map a (seq 0 nv)))
        (fun u => mem u (seq 0 nv) && negb (u =? w)) (fun u => nth u metrics 0%Qc) w b q).
    { intros b q ((a & A1 & A2 & A3) & A4). split.
      - exists a. split; [apply SS; auto|]. split; [auto|]. rewrite <- FF. auto.
      - intros c C1 C2. rewrite <- FF. apply A4; [apply SS; auto|auto]. }
    split; [apply T; auto|split; [apply T; auto|reflexivity]].
Qed.
