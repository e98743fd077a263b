(** * What a whole K-SAT run computes. *)
From Verif Require Import Num NumFacts Arr ArrFacts Spec SpecRun MinSum MinSumFacts.
From Verif Require Import P_Tsp_Constraints P_Kc_Trellis M_Ksat P_Ksat P_Equality M_Filter P_Filter M_InOut P_InOut.
From Verif Require Import M_Runs P_Runs P_Schedule.
Local Open Scope nat_scope.

Section Ksat.
Variables (nv nc k : nat) (flag : bool) (alpha : Qc) (conx : list (list nat)) (types : list (list Z)).
Variables (used : list nat) (metrics : list Qc) (varconx : list (list nat)) (m0 : list (list num)).
Hypothesis Hk : 2 <= k.
Hypothesis Hc : length conx = nc.
Hypothesis Ht : length types = nc.
Hypothesis Hwf : forall c cx tys, get conx c = Some cx -> get types c = Some tys -> clause_wf nv k cx tys.
Hypothesis Hm : length metrics = nv.
Hypothesis Hv : length varconx = nv.
Hypothesis Hused : Forall (fun x => x < nv) used.
Hypothesis Hconn : forall x l, get varconx x = Some l -> NoDup l /\ Forall (fun c => c < nc) l.
Let inp := {| ks_used := used; ks_metrics := map Fin metrics; ks_conx := conx; ks_type := types;
              ks_var2clause := m0; ks_varconx := varconx |}.

(** clause-to-variable messages [D] are the min-sum messages of the incoming [V] *)
Definition clause_step (V D : list (list Qc)) : Prop :=
  forall c cx tys, nth_error conx c = Some cx -> nth_error types c = Some tys ->
    (forall j x, nth_error cx j = Some x ->
       minsum_message (clause_ok (signs tys)) (map (fun x => qat V c x) cx) j (Fin (qat D c x))) /\
    (forall x, x < nv -> ~ In x cx -> qat D c x = 0%Qc).
(** variable-to-clause messages [V] from the filtered clause messages [M] *)
Definition variable_step (M V : list (list Qc)) : Prop :=
  (forall x l c, In x used -> nth_error varconx x = Some l -> In c l ->
     qat V c x = (nth x metrics 0 + qsum (map (fun c => qat M c x) (others c l)))%Qc) /\
  (forall c x, c < nc -> x < nv -> ~ (In x used /\ exists l, nth_error varconx x = Some l /\ In c l) ->
     qat V c x = 0%Qc).

Lemma ksat_step_sem st iter : ksat_fin nv nc st ->
  exists st', ksat_step flag (Fin alpha) nv nc k inp st iter = Some st' /\ ksat_fin nv nc st' /\
    clause_step (unm (kst_var st)) (unm (kst_dummy st')) /\
    (forall c x, c < nc -> x < nv -> qat (unm (kst_msg st')) c x =
       blend1 flag alpha iter (qat (unm (kst_dummy st')) c x) (qat (unm (kst_old st)) c x)) /\
    (forall c x, c < nc -> x < nv -> on flag alpha = true ->
       qat (unm (kst_old st')) c x = qat (unm (kst_msg st')) c x) /\
    variable_step (unm (kst_msg st')) (unm (kst_var st')).
Proof.
  intros F. pose proof F as ((V & SV & EV) & (D0 & SD0 & ED0) & (O & SO & EO) & (M0 & SM0 & EM0)).
  destruct (ksat_step_fin nv nc k flag alpha conx types used metrics varconx m0) with (st := st) (iter := iter)
    as (st' & E & F'); auto.
  { intros x l G. apply (Hconn x l G). }
  exists st'. split; [exact E|]. split; [exact F'|].
  unfold ksat_step in E. cbn [ks_conx ks_type ks_used ks_metrics ks_varconx inp] in E.
  rewrite EV, ED0, EO, EM0 in E.
  destruct (ksat_update_ok nc nv k V (inj D0) conx types) as (d & E1 & S1 & H1); auto using shape_inj.
  rewrite E1 in E; cbn [bind] in E.
  destruct (ksat_update_fin nv nc k conx types metrics varconx Hk Hc Ht Hwf Hm Hv (inj V) (inj D0)) as (d' & E1' & (D & SD & ->));
    [exists V; auto|apply shape_inj; auto|].
  rewrite E1 in E1'; injection E1' as ->.
  destruct (process_filtering_ok flag alpha iter nc nc nv D O (inj M0)) as (Q & O' & E2 & SQ & SO' & H2 & H3);
    auto using shape_inj.
  rewrite E2 in E; cbn [bind] in E.
  destruct (variable_update_ok nc nv Q metrics used varconx SQ Hm Hv Hused) with (out := inj V)
    as (w & E3 & S3 & H4 & H5); auto using shape_inj.
  { intros x l G. apply (Hconn x l G). }
  rewrite E3 in E; cbn [bind] in E. injection E as <-. cbn [kst_var kst_dummy kst_old kst_msg].
  rewrite EV, EO, !unm_inj.
  split; [|split; [|split]].
  - intros c cx tys Gc Gt. destruct (H1 c cx tys Gc Gt) as [A B].
    destruct (Hwf c cx tys Gc Gt) as (L1 & L2 & ND & FR & _).
    assert (Hcl : c < nc) by (rewrite <- Hc; eapply get_Some_lt; exact Gc).
    split.
    + intros j x Gj. destruct (get_lt (signs tys) j) as [s Gs].
      { unfold signs. rewrite map_length, L2, <- L1. apply nth_error_Some; congruence. }
      pose proof (A j x s Gj Gs) as G. rewrite (get2_inj nc nv) in G; auto.
      2:{ rewrite Forall_forall in FR. apply FR. eapply nth_error_In; eauto. }
      injection G as ->. apply clause_message; auto. unfold signs. rewrite !map_length. congruence.
    + intros x Hx Nx. pose proof (B x Hx Nx) as G. rewrite (get2_inj nc nv) in G; auto. injection G as ->; auto.
  - exact H2.
  - exact H3.
  - split.
    + intros x l c Hx Gl Hcl. pose proof (Hconn x l Gl) as [ND FR].
      pose proof Hcl as Hin. apply In_nth_error in Hcl as [i Gi].
      apply (qat_unm nc nv w c x); auto.
      * rewrite Forall_forall in FR. auto.
      * rewrite Forall_forall in Hused. auto.
      * rewrite (H4 x l i c Hx Gl Gi). rewrite (remove_others l i c); auto.
    + intros c x Hcl Hx Nx. apply (qat_unm nc nv w c x 0%Qc); auto.
Qed.

Lemma ksat_run_sem iters (V0 : list (list Qc)) : shape nc nv V0 -> m0 = inj V0 ->
  exists (st : ksat_state) (ext : list Qc) (V D M : nat -> list (list Qc)),
    ksat_iterate flag (Fin alpha) nv nc k iters inp = Some (st, map Fin ext) /\ length ext = nv /\
    V 0 = V0 /\
    (forall t, clause_step (V t) (D t) /\
       (forall c x, c < nc -> x < nv ->
          qat (M t) c x = filtered flag alpha (fun i => qat (D i) c x) t) /\
       variable_step (M t) (V (t + 1))) /\
    (forall x, x < nv -> nth x ext 0%Qc = if iters =? 0 then 0%Qc else qsum (col (M (iters - 1)) nc x)).
Proof.
  intros SV E0. unfold ksat_iterate. cbn [ks_var2clause inp].
  destruct (run_seq (ksat_init nv nc m0) (ksat_step flag (Fin alpha) nv nc k inp) (ksat_fin nv nc))
    as (s & S0 & HS).
  { split; [|split; [|split]]; cbn; auto using finm_zeros. rewrite E0. exists V0; auto. }
  { intros st i F. destruct (ksat_step_sem st i F) as (st' & E & F' & _). eauto. }
  destruct (HS iters) as (F & _ & E). rewrite E; cbn [bind].
  destruct F as (_ & _ & _ & FM). destruct (finm_unm _ _ _ FM) as [EM SM].
  destruct (finv_zeros nv) as (z & Lz & Ez). rewrite EM, Ez.
  destruct (ksat_extrinsic_ok nv nc (unm (kst_msg (s iters))) z SM Lz) as (q & E2 & L2 & H2).
  rewrite E2; cbn [bind].
  exists (s iters), q, (fun t => unm (kst_var (s t))), (fun t => unm (kst_dummy (s (t + 1)))),
    (fun t => unm (kst_msg (s (t + 1)))).
  split; [reflexivity|]. split; auto. split; [rewrite S0; cbn; rewrite E0; apply unm_inj|].
  assert (ST : forall t, clause_step (unm (kst_var (s t))) (unm (kst_dummy (s (t + 1)))) /\
    (forall c x, c < nc -> x < nv -> qat (unm (kst_msg (s (t + 1)))) c x =
       blend1 flag alpha t (qat (unm (kst_dummy (s (t + 1)))) c x) (qat (unm (kst_old (s t))) c x)) /\
    (forall c x, c < nc -> x < nv -> on flag alpha = true ->
       qat (unm (kst_old (s (t + 1)))) c x = qat (unm (kst_msg (s (t + 1)))) c x) /\
    variable_step (unm (kst_msg (s (t + 1)))) (unm (kst_var (s (t + 1))))).
  { intros t. destruct (HS t) as (Ft & Et & _). destruct (ksat_step_sem (s t) t Ft) as (st' & E' & _ & R).
    rewrite Et in E'. injection E' as <-. exact R. }
  split.
  - intros t. split; [apply ST|]. split; [|apply ST].
    intros c x Hcl Hx.
    apply (filtered_run flag alpha (fun i => qat (unm (kst_dummy (s (i + 1)))) c x)
      (fun i => qat (unm (kst_old (s i))) c x) (fun i => qat (unm (kst_msg (s (i + 1)))) c x)).
    + intros i. apply ST; auto.
    + intros i On. apply ST; auto.
  - intros x Hx. rewrite H2 by auto.
    assert (Zx : nth x z 0%Qc = 0%Qc).
    { assert (E' : z = repeat 0%Qc nv).
      { rewrite <- (unv_fin z), <- Ez. unfold unv. rewrite map_repeat. reflexivity. }
      rewrite E'. apply nth_repeat. }
    rewrite Zx, Qcplus_0_l. destruct (Nat.eqb_spec iters 0) as [->|N].
    + rewrite S0. unfold col, ksat_init, zeros. cbn [kst_msg].
      assert (Z : forall c, qat (unm (repeat (repeat n0 nv) nc)) c x = 0%Qc).
      { intros c. unfold qat, unm, unv. rewrite map_repeat, map_repeat. cbn [unfin n0].
        destruct (nth_in_or_default c (repeat (repeat 0%Qc nv) nc) []) as [I| ->].
        - apply repeat_spec in I. rewrite I. apply nth_repeat.
        - destruct x; reflexivity. }
      rewrite (map_ext _ (fun _ => 0%Qc)) by (intros; apply Z).
      induction (seq 0 nc) as [|y l IH]; cbn [map]; [reflexivity|]. rewrite qsum_cons, IH. ring.
    + replace (iters - 1 + 1) with iters by lia. reflexivity.
Qed.
End Ksat.
