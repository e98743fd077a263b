(** * Filtered K-SAT runs on formulas without cycles *)
From Coq Require Import Permutation.
From Verif Require Import Num NumFacts Arr ArrFacts Spec SpecRun SpecForest MinSum MinSumFacts P_Ksat P_Tsp_Sched P_Tsp_Order.
From Verif Require Import M_Tsp_Run M_Ksat_Py P_Ksat_Py P_PyRef_Ksat P_Forest P_Forest_Limit P_Ksat_Tree P_Tsp_Assign.
From Verif Require Import M_InOut M_Runs P_Runs P_Schedule T_Schedule.
Local Open Scope nat_scope.

Lemma filtered_none flag a d t : (forall i, i <= t -> d i = 0%Qc) -> filtered flag a d t = 0%Qc.
Proof.
  induction t as [|t IH]; intros H.
  - rewrite filtered_0, H by lia. ring.
  - rewrite filtered_S, IH, H by (intros; try apply H; lia). ring.
Qed.
Lemma effective_range flag a : (0 <= a)%Qc -> (a < 1)%Qc -> (0 <= effective flag a)%Qc /\ (effective flag a < 1)%Qc.
Proof. intros H0 H1. unfold effective. destruct (flag && negb (Qc_eq_bool a 0)); split; auto; [discriminate|reflexivity]. Qed.

Lemma fsched_zero U cx ok idx V R D mu : fsched U cx ok idx 0 V R D mu -> sched U cx ok idx V D (fun _ => mu).
Proof.
  intros H. assert (E : forall t c v, In c idx -> In v (cx c) -> D t c v = R t c v).
  { intros [|t] c v Hc Hv; [rewrite (f_first _ _ _ _ _ _ _ _ _ H) by auto; ring|].
    rewrite <- Nat.add_1_r, (f_next _ _ _ _ _ _ _ _ _ H) by auto. ring. }
  split.
  - intros t c v Hc Hv. rewrite E by auto. apply (f_raw _ _ _ _ _ _ _ _ _ H); auto.
  - apply (f_off _ _ _ _ _ _ _ _ _ H).
  - apply (f_in _ _ _ _ _ _ _ _ _ H).
Qed.

(** the solver's run as a filtered schedule *)
Lemma run_fsched iters nv nc k used (metrics : list Qc) conx types (V0 : list (list Qc)) varconx idx flag alpha mu :
  2 <= k -> length metrics = nv -> shape nc k conx -> shape nc k types -> shape nc nv V0 ->
  (forall c cx tys, nth_error conx c = Some cx -> nth_error types c = Some tys -> clause_wf nv k cx tys) ->
  length varconx = nv -> Forall (fun x => x < nv) used ->
  (forall x l, nth_error varconx x = Some l -> NoDup l /\ forall c, In c l <-> In x (nth c conx [])) ->
  (forall j, j < nv -> ~ In j used -> nth j varconx [] = []) ->
  Permutation idx (seq 0 nc) ->
  (forall c u, In u (nth c conx []) -> mu u = nth u metrics 0%Qc) ->
  exists ext V R D,
    wrapper_ksat iters nv nc (length used) (Fin alpha) flag used (concat varconx)
      (map (@length nat) varconx) (concat conx) (concat types) (map Fin metrics) (concat (inj V0)) k
      = Some (map Fin ext) /\ length ext = nv /\
    fsched (seq 0 nv) (fun c => nth c conx []) (clause_at conx types) idx (effective flag alpha) V R D mu /\
    V 0 = qat V0 /\
    forall w, w < nv -> nth w ext 0%Qc = if iters =? 0 then 0%Qc else qsum (map (fun c => D (iters - 1) c w) idx).
Proof.
  intros Hk Lm Sc St SV Wf Lv Hu Hin Hun P Hmu.
  destruct Sc as (Lc & Fc). destruct St as (Lt & Ft).
  assert (HB : forall c u, In u (nth c conx []) -> c < nc /\ u < nv).
  { intros c u Hu'. destruct (Nat.lt_ge_cases c nc) as [Lc'|G].
    - split; [auto|]. destruct (Wf c (nth c conx []) (nth c types [])) as (_ & _ & _ & B & _); try (apply nth_error_nth'; lia).
      rewrite Forall_forall in B. auto.
    - rewrite nth_overflow in Hu' by lia. destruct Hu'. }
  destruct (C49_ksat_run iters nv nc k used metrics conx types V0 varconx flag alpha)
    as (ext & V & D & M & E & Le & E0 & HT & HX); auto.
  { split; auto. } { split; auto. }
  { intros x l Hx. destruct (Hin x l Hx) as (A & B). split; [auto|]. apply Forall_forall. intros c Hc.
    apply B in Hc. apply HB in Hc. tauto. }
  assert (Ic : forall c, In c idx <-> c < nc).
  { intros c. split; intros H.
    - apply (Permutation_in _ P), in_seq in H. lia.
    - apply (Permutation_in _ (Permutation_sym P)), in_seq. lia. }
  assert (ND : NoDup idx) by (eapply Permutation_NoDup; [apply Permutation_sym, P|apply seq_NoDup]).
  assert (MF : forall t c x, c < nc -> x < nv -> qat (M t) c x = filtered flag alpha (fun i => qat (D i) c x) t).
  { intros t. apply (HT t). }
  assert (Off : forall t c x, c < nc -> x < nv -> ~ In x (nth c conx []) -> qat (M t) c x = 0%Qc).
  { intros t c x Hc Hx N. rewrite MF by auto. apply filtered_none. intros i _. destruct (HT i) as (A & _).
    destruct (A c (nth c conx []) (nth c types [])) as (_ & B); try (apply nth_error_nth'; lia). auto. }
  set (D' := fun t c x => if x <? nv then qat (M t) c x else 0%Qc).
  assert (D'in : forall t c x, x < nv -> D' t c x = qat (M t) c x).
  { intros t c x Hx. unfold D'. destruct (Nat.ltb_spec x nv); [reflexivity|lia]. }
  exists ext, (fun t => qat (V t)), (fun t c x => qat (D t) c x), D'.
  split; [exact E|split; [exact Le|split; [|split]]].
  - split.
    + intros t c v Hc Hv. apply Ic in Hc. destruct (HT t) as (A & _).
      destruct (A c (nth c conx []) (nth c types [])) as (B & _); try (apply nth_error_nth'; lia).
      apply In_nth_error in Hv as (j & Hj). specialize (B j v Hj).
      destruct (Wf c (nth c conx []) (nth c types [])) as (_ & _ & W1 & W2 & _); try (apply nth_error_nth'; lia).
      apply (minsum_msg _ nv) with (v := v) in B; auto.
    + intros t c v Hc Hv. apply Ic in Hc. unfold D'. destruct (Nat.ltb_spec v nv); [|reflexivity]. apply Off; auto.
    + intros c v Hc Hv. destruct (HB _ _ Hv) as (B1 & B2). rewrite D'in, MF, filtered_0 by auto. reflexivity.
    + intros t c v Hc Hv. destruct (HB _ _ Hv) as (B1 & B2). rewrite !D'in, !MF by auto.
      rewrite Nat.add_1_r, filtered_S. reflexivity.
    + intros t c v Hc Hv. destruct (HB _ _ Hv) as (_ & Lv'). destruct (HT t) as (_ & _ & A & _).
      assert (Hx : nth_error varconx v = Some (nth v varconx [])) by (apply nth_error_nth'; lia).
      destruct (Hin v _ Hx) as (N1 & N2). rewrite (A v _ c Hx) by (apply N2; auto).
      rewrite (Hmu c v Hv). f_equal.
      rewrite (qsum_filter_zero (fun c' => D' t c' v) (fun c' => mem c' (nth v varconx []))).
      2:{ intros a Ha Ea. unfold others in Ha. apply filter_In in Ha as (Ha & _). apply Ic in Ha. rewrite D'in by auto.
          apply Off; auto. intros X. apply N2, mem_In in X. congruence. }
      transitivity (qsum (map (fun c' => D' t c' v) (others c (nth v varconx [])))).
      * f_equal. apply map_ext_in. intros c' Hc'. rewrite D'in by auto. reflexivity.
      * apply qsum_perm, Permutation_map, NoDup_Permutation; [apply NoDup_filter; auto|apply NoDup_filter, NoDup_filter; auto|].
        intros x. unfold others. rewrite !filter_In, mem_In. split.
        -- intros (H1 & H2). split; [split; [|auto]|auto]. apply Ic. apply N2, HB in H1. tauto.
        -- tauto.
  - rewrite E0. reflexivity.
  - intros w Hw. rewrite HX by auto. destruct (Nat.eqb_spec iters 0); [reflexivity|].
    transitivity (qsum (map (fun c => qat (M (iters - 1)) c w) idx)).
    + apply qsum_perm, Permutation_map, Permutation_sym, P.
    + f_equal. apply map_ext_in. intros c Hc. rewrite D'in by auto. reflexivity.
Qed.

(** the output approaches the exact messages *)
Lemma limit_core nv nc k used (metrics : list Qc) conx types (V0 : list (list Qc)) varconx idx flag alpha mu :
  2 <= k -> length metrics = nv -> shape nc k conx -> shape nc k types -> shape nc nv V0 ->
  (forall c cx tys, nth_error conx c = Some cx -> nth_error types c = Some tys -> clause_wf nv k cx tys) ->
  length varconx = nv -> Forall (fun x => x < nv) used ->
  (forall x l, nth_error varconx x = Some l -> NoDup l /\ forall c, In c l <-> In x (nth c conx [])) ->
  (forall j, j < nv -> ~ In j used -> nth j varconx [] = []) ->
  Permutation idx (seq 0 nc) -> forest (fun c => nth c conx []) idx ->
  (0 <= alpha)%Qc -> (alpha < 1)%Qc ->
  (forall c u, In u (nth c conx []) -> mu u = nth u metrics 0%Qc) ->
  forall w, w < nv -> exists d, gmsg (seq 0 nv) (clause_at conx types) idx mu w d /\
    forall e, (0 < e)%Qc -> exists T, forall iters, T <= iters -> exists ext,
      wrapper_ksat iters nv nc (length used) (Fin alpha) flag used (concat varconx)
        (map (@length nat) varconx) (concat conx) (concat types) (map Fin metrics) (concat (inj V0)) k
        = Some (map Fin ext) /\ length ext = nv /\ near e d (nth w ext 0%Qc).
Proof.
  intros Hk Lm Sc St SV Wf Lv Hu Hin Hun P F A0 A1 Hmu w Hw.
  assert (Run : forall fl iters, exists ext V R D,
    wrapper_ksat iters nv nc (length used) (Fin alpha) fl used (concat varconx)
      (map (@length nat) varconx) (concat conx) (concat types) (map Fin metrics) (concat (inj V0)) k
      = Some (map Fin ext) /\ length ext = nv /\
    fsched (seq 0 nv) (fun c => nth c conx []) (clause_at conx types) idx (effective fl alpha) V R D mu /\
    V 0 = qat V0 /\
    forall w, w < nv -> nth w ext 0%Qc = if iters =? 0 then 0%Qc else qsum (map (fun c => D (iters - 1) c w) idx)).
  { intros fl iters. apply run_fsched; auto. }
  destruct (Run false 0) as (_ & Vu & Ru & Du & _ & _ & Fu & _). apply fsched_zero in Fu.
  destruct (Run flag 0) as (_ & V & R & D & _ & _ & Ff & E0 & _).
  assert (HB : forall c u, In u (nth c conx []) -> In u (seq 0 nv)).
  { intros c u Hu'. apply in_seq. destruct Sc as (Lc & _). destruct St as (Lt & _). destruct (Nat.lt_ge_cases c nc) as [Lc'|G].
    - destruct (Wf c (nth c conx []) (nth c types [])) as (_ & _ & _ & B & _); try (apply nth_error_nth'; lia).
      rewrite Forall_forall in B. apply B in Hu'. lia.
    - rewrite nth_overflow in Hu' by lia. destruct Hu'. }
  destruct (effective_range flag alpha A0 A1) as (B0 & B1).
  destruct (forest_limit (seq 0 nv) (seq_NoDup nv 0) (fun c => nth c conx []) (clause_at conx types)) with
    (idx := idx) (a := effective flag alpha) (V0 := Vu) (D0 := Du) (V := V) (R := R) (D := D) (mu := mu) (w := w)
    as (d & Gd & Ld); auto.
  { intros c a b. apply clause_at_ext. }
  { eapply Permutation_NoDup; [apply Permutation_sym, P|apply seq_NoDup]. }
  exists d. split; [exact Gd|]. intros e He. destruct (Ld e He) as (T & HT). exists (T + 1). intros iters Hi.
  destruct (Run flag iters) as (ext & V' & R' & D' & Er & Le & Ff' & E0' & HX).
  exists ext. split; [exact Er|split; [exact Le|]]. rewrite HX by lia. destruct (Nat.eqb_spec iters 0); [lia|].
  assert (Eq : map (fun c => D' (iters - 1) c w) idx = map (fun c => D (iters - 1) c w) idx).
  { apply map_ext_in. intros c Hc. eapply fsched_unique; eauto. intros c' v _ _. rewrite E0, E0'. reflexivity. }
  rewrite Eq. apply HT. lia.
Qed.
