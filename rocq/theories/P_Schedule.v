(** * Message schedules: general facts about iterated steps and about filtering over a run *)
From Verif Require Import Num NumFacts Arr ArrFacts Spec SpecRun MinSum.
From Verif Require Import P_Tsp_Constraints P_Kc_Trellis P_Ksat M_Filter P_Filter P_Runs.
Local Open Scope nat_scope.

Lemma for_up_S {S} (s : S) body i :
  for_up 0 (i + 1) s body = bind (for_up 0 i s body) (fun s => body s i).
Proof.
  unfold for_up. rewrite !Nat.sub_0_r, Nat.add_1_r, seq_S. cbn [Nat.add].
  generalize (seq 0 i). intros l. revert s. induction l as [|x l IH]; intros s; cbn.
  - destruct (body s i); reflexivity.
  - destruct (body s x) as [s'|]; cbn; auto.
Qed.

(** a loop whose step always succeeds on an invariant: the sequence of its states *)
Lemma run_seq {S} (init : S) (body : S -> nat -> option S) (I : S -> Prop) :
  I init -> (forall st i, I st -> exists st', body st i = Some st' /\ I st') ->
  exists s : nat -> S, s 0 = init /\
    forall i, I (s i) /\ body (s i) i = Some (s (i + 1)) /\ for_up 0 i init body = Some (s i).
Proof.
  intros H0 Hs.
  set (s := fun i => match for_up 0 i init body with Some x => x | None => init end).
  assert (K : forall i, I (s i) /\ for_up 0 i init body = Some (s i)).
  { induction i as [|i [IH1 IH2]].
    - unfold s. cbn. auto.
    - destruct (Hs (s i) i IH1) as (st' & E & I').
      assert (E' : for_up 0 (Datatypes.S i) init body = Some st').
      { replace (Datatypes.S i) with (i + 1) by lia. rewrite for_up_S, IH2. exact E. }
      assert (Es : s (Datatypes.S i) = st') by (unfold s; rewrite E'; reflexivity).
      rewrite Es. auto. }
  exists s. split; [reflexivity|]. intros i. destruct (K i) as [K1 K2]. split; auto. split; auto.
  destruct (K (i + 1)) as [_ K3]. rewrite for_up_S, K2 in K3. exact K3.
Qed.

(** the rational matrix behind a finite one *)
Definition unfin (v : num) : Qc := match v with Fin q => q | _ => 0%Qc end.
Definition unv (v : list num) : list Qc := map unfin v.
Definition unm (m : list (list num)) : list (list Qc) := map unv m.
Lemma unv_fin q : unv (map Fin q) = q.
Proof. unfold unv. rewrite map_map. cbn. apply map_id. Qed.
Lemma unm_inj Q : unm (inj Q) = Q.
Proof.
  unfold unm, inj. rewrite map_map. rewrite (map_ext _ (fun x => x)); [apply map_id|]. apply unv_fin.
Qed.
Lemma finm_unm n k m : finm n k m -> m = inj (unm m) /\ shape n k (unm m).
Proof. intros (Q & S & ->). rewrite unm_inj. auto. Qed.
Lemma finv_unv n v : finv n v -> v = map Fin (unv v) /\ length (unv v) = n.
Proof. intros (Q & S & ->). rewrite unv_fin. auto. Qed.
Lemma unm_get n k m i j v : shape n k m -> i < n -> j < k -> get2 m i j = Some v ->
  qat (unm m) i j = unfin v.
Proof.
  intros S Hi Hj G. unfold get2 in G. destruct (get m i) as [r|] eqn:Gr; cbn [bind] in G; [|discriminate].
  unfold qat, unm, unv.
  assert (E : nth_error (map (map unfin) m) i = Some (map unfin r)) by (rewrite nth_error_map; unfold get in Gr; rewrite Gr; reflexivity).
  change (nth j (nth i (map (map unfin) m) []) 0%Qc = unfin v).
  rewrite (nth_error_nth _ _ _ E).
  assert (E2 : nth_error (map unfin r) j = Some (unfin v)) by (rewrite nth_error_map; unfold get in G; rewrite G; reflexivity).
  apply nth_error_nth; exact E2.
Qed.
Lemma qat_unm n k m i j q : shape n k m -> i < n -> j < k -> get2 m i j = Some (Fin q) -> qat (unm m) i j = q.
Proof. intros S Hi Hj G. rewrite (unm_get n k m i j _ S Hi Hj G). reflexivity. Qed.

(** ** Filtering over a run: [d] raw values, [o] remembered values, [m] filtered values *)
Lemma on_eqb flag a : on flag a = flag && negb (Qc_eq_bool a 0).
Proof.
  destruct (on flag a) eqn:E.
  - apply on_iff in E as [-> N]. destruct (Qc_eq_bool a 0) eqn:X; auto.
    apply Qc_eq_bool_correct in X. contradiction.
  - destruct flag; auto. cbn. destruct (Qc_eq_bool a 0) eqn:X; auto.
    assert (on true a = true); [|congruence]. apply on_iff. split; auto. intros ->.
    unfold Qc_eq_bool in X. destruct (Qc_eq_dec 0 0); congruence.
Qed.

Lemma filtered_run flag a d o m :
  (forall t, m t = blend1 flag a t (d t) (o t)) ->
  (forall t, on flag a = true -> o (t + 1) = m t) ->
  forall t, m t = filtered flag a d t.
Proof.
  intros Hm Ho. unfold filtered. rewrite <- on_eqb. destruct (on flag a) eqn:On.
  2:{ intros t. rewrite Hm. unfold blend1. rewrite On. reflexivity. }
  induction t as [|t IH].
  - rewrite Hm. unfold blend1. rewrite On. cbn. ring.
  - rewrite Hm. unfold blend1. rewrite On. cbn [Nat.eqb].
    replace (o (S t)) with (m t) by (rewrite <- Ho by auto; f_equal; lia). rewrite IH.
    replace (S t + 1) with (S (t + 1)) by lia. rewrite seq_S, map_app, qsum_app. cbn [map].
    rewrite qsum_cons. change (qsum []) with 0%Qc. replace (S t - (0 + (t + 1))) with 0 by lia.
    replace (0 + (t + 1)) with (S t) by lia. cbn [Qcpower].
    assert (E : map (fun i => ((1 - a) * a ^ (S t - i) * d i)%Qc) (seq 0 (t + 1))
      = map (fun i => ((1 - a) * a ^ (t - i) * d i * a)%Qc) (seq 0 (t + 1))).
    { apply map_ext_in. intros i Hi. apply in_seq in Hi. replace (S t - i) with (S (t - i)) by lia.
      cbn [Qcpower]. ring. }
    rewrite E, qsum_map_mul. ring.
Qed.
