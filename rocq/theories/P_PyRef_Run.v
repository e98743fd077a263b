(** * Whole runs of the pure Python solvers are the C++ runs: K-SAT and KC-MWM. *)
From Verif Require Import Num NumFacts Arr ArrFacts Spec SpecRun MinSum MinSumFacts.
From Verif Require Import M_Kc_Trellis P_Tsp_Constraints P_Kc_Trellis M_Ksat P_Ksat M_Equality P_Equality M_Filter P_Filter M_InOut P_InOut.
From Verif Require Import M_Knapsack P_Knapsack P_Team_Knapsack M_Runs P_Runs P_Schedule P_Kc_Run.
From Verif Require Import M_Ksat_Py P_Ksat_Py P_Ksat_Gen.
From Verif Require Import M_PyRef M_PyRef_Kc M_PyRef_Ksat M_PyRef_Run P_PyRef P_PyRef_Kc P_PyRef_Ksat.
Local Open Scope nat_scope.

(** two loops in lockstep *)
Lemma for_up_sim {A B} n (a : A) (b : B) fa fb (R : nat -> A -> B -> Prop) :
  R 0 a b ->
  (forall i a b, i < n -> R i a b -> exists a' b', fa a i = Some a' /\ fb b i = Some b' /\ R (i + 1) a' b') ->
  exists a' b', for_up 0 n a fa = Some a' /\ for_up 0 n b fb = Some b' /\ R n a' b'.
Proof.
  intros H0 Hs. induction n as [|n IH].
  - exists a, b. unfold for_up. cbn. auto.
  - destruct IH as (a1 & b1 & E1 & E2 & H1); [intros; apply Hs; auto|].
    replace (Datatypes.S n) with (n + 1) by lia. rewrite !for_up_S, E1, E2. cbn [bind].
    apply Hs; auto.
Qed.

(** filtering of finite messages, both programs *)
Lemma filtering_same flag a iter n k D old O out : shape n k D -> shape n k O -> shape n k out ->
  (flag = true -> a <> 0%Qc) -> (on flag a = true -> 0 < iter -> old = Some (inj O)) ->
  exists Q O' old', py_filtering flag (Fin a) iter (inj D) old = Some (inj Q, old') /\
    process_filtering flag (Fin a) iter n (inj D) (inj O) out = Some (inj Q, inj O') /\
    shape n k Q /\ shape n k O' /\
    (forall i j, i < n -> j < k -> qat Q i j = blend1 flag a iter (qat D i j) (qat O i j)) /\
    (on flag a = true -> old' = Some (inj O') /\ O' = Q) /\
    (on flag a = false -> Q = D).
Proof.
  intros HD HO Hout Ha Hold.
  destruct (process_filtering_ok flag a iter n n k D O out) as (Q & O' & E & SQ & SO & HQ & HO'); auto.
  destruct (py_filtering_ok flag a iter n k D old O) as (Q2 & old' & E2 & SQ2 & HQ2 & Hold'); auto.
  assert (Q2 = Q) as ->.
  { apply (qmat_ext n k); auto. intros i j Hi Hj. rewrite HQ, HQ2; auto. }
  exists Q, O', old'. repeat (split; auto).
  - rewrite Hold' by auto. f_equal. f_equal. symmetry. apply (qmat_ext n k); auto.
  - apply (qmat_ext n k); auto.
  - intros X. apply (qmat_ext n k); auto. intros i j Hi Hj. rewrite HQ by auto. unfold blend1. rewrite X. reflexivity.
Qed.

(** ** K-SAT *)
Section Ksat.
Variables (nv nc k : nat) (flag : bool) (alpha : Qc) (conx : list (list nat)) (types : list (list Z)).
Variables (used : list nat) (metrics : list Qc) (varconx : list (list nat)) (m0 : list (list num)).
Hypothesis Hk : 2 <= k.
Hypothesis Hc : length conx = nc.
Hypothesis Ht : length types = nc.
Hypothesis Hwf : forall c cx tys, get conx c = Some cx -> get types c = Some tys -> clause_wf nv k cx tys.
Hypothesis Hm : length metrics = nv.
Hypothesis Hv : length varconx = nv.
Hypothesis Hused : Forall (fun x => x < nv) used.
Hypothesis Hconn : forall x l, get varconx x = Some l -> Forall (fun c => c < nc) l.
Hypothesis Hnd : forall x l, get varconx x = Some l -> NoDup l.
Hypothesis Hcov : forall c cx x l, get conx c = Some cx -> In x cx -> get varconx x = Some l -> In c l.
Hypothesis Halpha : flag = true -> alpha <> 0%Qc.
Let inp := {| ks_used := used; ks_metrics := map Fin metrics; ks_conx := conx; ks_type := types;
              ks_var2clause := m0; ks_varconx := varconx |}.

Definition silent (M : list (list Qc)) : Prop :=
  forall x l c, get varconx x = Some l -> c < nc -> ~ In c l -> qat M c x = 0%Qc.
Definition ksat_rel (i : nat) (p : pk_state) (s : ksat_state) : Prop :=
  exists V O M, shape nc nv V /\ shape nc nv O /\ shape nc nv M /\ shape nc nv (kst_dummy s) /\
    pk_var p = inj V /\ kst_var s = inj V /\ kst_old s = inj O /\ kst_msg s = inj M /\
    (on flag alpha = true -> silent O) /\ (on flag alpha = true -> 0 < i -> pk_old p = Some (inj O)) /\
    py_extrinsic_variable nv (inj M) = Some (pk_extr p).

Lemma blend_zero b a i d o : d = 0%Qc -> (on b a = true -> o = 0%Qc) -> blend1 b a i d o = 0%Qc.
Proof. intros -> H. unfold blend1. destruct (on b a); [rewrite H by auto|]; destruct (i =? 0); ring. Qed.

Lemma ksat_step_same i p s : ksat_rel i p s ->
  exists p' s', py_ksat_step flag (Fin alpha) nv nc conx types used varconx (map Fin metrics) p i = Some p' /\
    ksat_step flag (Fin alpha) nv nc k inp s i = Some s' /\ ksat_rel (i + 1) p' s'.
Proof.
  intros (V & O & M & SV & SO & SM & Sd & E1 & E2 & E3 & E4 & Z & Hold & HX).
  unfold py_ksat_step, ksat_step. cbn [ks_conx ks_type ks_used ks_metrics ks_varconx inp].
  rewrite E1, E2, E3, E4.
  destruct (ksat_same nc nv k V (kst_dummy s) conx types) as (R & A1 & A2 & SR); auto.
  destruct (ksat_update_fin nv nc k conx types metrics varconx Hk Hc Ht Hwf Hm Hv (inj V) (kst_dummy s)) as (d' & A3 & (D & SD & ->));
    auto; [exists V; auto|].
  rewrite A2 in A3; injection A3 as ->.
  destruct (py_ksat_ok nc nv k V conx types SV Hc Ht Hwf) as (d' & A3 & _ & HD).
  rewrite A1 in A3; injection A3 as <-.
  rewrite A1, A2. cbn [bind].
  destruct (filtering_same flag alpha i nc nv D (pk_old p) O (inj M)) as (Q & O' & old' & F1 & F2 & SQ & SO' & HQ & Hon & Hoff);
    auto using shape_inj.
  rewrite F1, F2. cbn [bind].
  assert (ZD : silent D).
  { intros x l c Gx Hcl Nx. destruct (get_lt conx c) as [cx Gc]; [lia|]. destruct (get_lt types c) as [tys Gt]; [lia|].
    destruct (HD c cx tys Gc Gt) as [_ HD0].
    assert (Hx : x < nv) by (rewrite <- Hv; eapply get_Some_lt; eauto).
    assert (N : ~ In x cx) by (intros I; apply Nx; eapply Hcov; eauto).
    pose proof (HD0 x Hx N) as G. rewrite (get2_inj nc nv) in G by auto. injection G as ->; auto. }
  assert (ZQ : silent Q).
  { intros x l c Gx Hcl Nx. assert (Hx : x < nv) by (rewrite <- Hv; eapply get_Some_lt; eauto).
    rewrite HQ by auto. apply blend_zero; [eapply ZD; eauto|]. intros On. eapply Z; eauto. }
  destruct (variable_same nc nv Q metrics used varconx (inj V)) as (W & B1 & B2 & SW); auto using shape_inj.
  { intros x l c _ Gx. eapply ZQ; eauto. }
  rewrite B1, B2. cbn [bind].
  destruct (variable_update_fin nv nc k conx types used metrics varconx Hk Hc Ht Hm Hv Hused Hconn (inj Q) (inj V)) as (W' & B3 & (W0 & SW0 & EW));
    auto using shape_inj; [exists Q; auto|].
  rewrite B2 in B3; injection B3 as <-. subst W.
  destruct (extrinsic_variable_same nc nv Q SQ) as (q & C1 & C2). rewrite C1. cbn [bind].
  do 2 eexists. split; [reflexivity|]. split; [reflexivity|].
  unfold ksat_rel. cbn [pk_var pk_old pk_extr kst_var kst_dummy kst_old kst_msg].
  exists W0, O', Q. repeat (split; auto using shape_inj).
  - intros On. destruct (Hon On) as [_ ->]; auto.
  - intros On _. destruct (Hon On) as [-> _]; auto.
Qed.

Lemma ksat_run_same iters M0 : shape nc nv M0 -> m0 = inj M0 ->
  exists p s q, for_up 0 iters {| pk_var := inj M0; pk_old := None; pk_extr := repeat n0 nv |}
      (py_ksat_step flag (Fin alpha) nv nc conx types used varconx (map Fin metrics)) = Some p /\
    ksat_iterate flag (Fin alpha) nv nc k iters inp = Some (s, map Fin q) /\
    pk_extr p = map Fin q /\ length q = nv /\ pk_var p = kst_var s.
Proof.
  intros S0 Em. unfold ksat_iterate. cbn [ks_var2clause inp]. rewrite Em.
  assert (Z0 : zeros nc nv = inj (repeat (repeat 0%Qc nv) nc)).
  { unfold zeros, inj. rewrite map_repeat, map_repeat. reflexivity. }
  assert (SZ : shape nc nv (repeat (repeat 0%Qc nv) nc)) by (apply shape_repeat).
  assert (ZQ : forall i j, i < nc -> j < nv -> qat (repeat (repeat 0%Qc nv) nc) i j = 0%Qc).
  { intros i j Hi Hj. unfold qat. rewrite (nth_indep _ [] (repeat 0%Qc nv)) by (rewrite repeat_length; auto).
    rewrite nth_repeat, nth_repeat. auto. }
  destruct (for_up_sim iters {| pk_var := inj M0; pk_old := None; pk_extr := repeat n0 nv |} (ksat_init nv nc (inj M0))
     (py_ksat_step flag (Fin alpha) nv nc conx types used varconx (map Fin metrics))
     (ksat_step flag (Fin alpha) nv nc k inp) ksat_rel) as (p & s & E1 & E2 & R).
  - unfold ksat_rel, ksat_init. cbn [pk_var pk_old pk_extr kst_var kst_dummy kst_old kst_msg].
    exists M0, (repeat (repeat 0%Qc nv) nc), (repeat (repeat 0%Qc nv) nc).
    rewrite Z0. repeat (split; auto using shape_inj); try lia.
    + intros _ x l c Gx Hcl _. apply ZQ; auto. rewrite <- Hv. eapply get_Some_lt; eauto.
    + unfold py_extrinsic_variable. rewrite (sum_axis0_ok nc) by auto. f_equal.
      assert (X : map (fun v => qsum (col (repeat (repeat 0%Qc nv) nc) nc v)) (seq 0 nv) = map (fun _ => 0%Qc) (seq 0 nv)).
      { apply map_ext_in. intros v Hi. apply in_seq in Hi. unfold col.
        rewrite (map_ext_in _ (fun _ => 0%Qc)) by (intros i Hi'; apply in_seq in Hi'; apply ZQ; lia).
        clear. induction (seq 0 nc); cbn [map qsum fold_right]; auto. change (fold_right _ _ _) with (qsum (map (fun _ : nat => 0%Qc) l)). rewrite IHl. ring. }
      rewrite X, map_map. clear. rewrite <- (seq_length nv 0) at 2. induction (seq 0 nv); cbn; auto. f_equal. auto.
  - intros i a b _ H. destruct (ksat_step_same i a b H) as (p' & s' & A & B & C). eauto.
  - rewrite E1, E2. cbn [bind].
    destruct R as (V & O & M & SV & SO & SM & Sd & A1 & A2 & A3 & A4 & _ & _ & HX).
    destruct (extrinsic_variable_same nc nv M SM) as (q & B1 & B2).
    rewrite A4. rewrite map_repeat in B2. unfold n0. rewrite B2. cbn [bind].
    exists p, s, q. repeat (split; [congruence|]). split; [|congruence].
    unfold py_extrinsic_variable in B1. rewrite (sum_axis0_ok nc) in B1 by auto. injection B1 as B1.
    apply (f_equal (@length num)) in B1. rewrite !map_length, seq_length in B1. auto.
Qed.
End Ksat.

Lemma upd_upd {A} (l : list A) i a b : upd (upd l i a) i b = upd l i b.
Proof. revert i; induction l as [|x l IH]; intros [|i]; cbn; auto. rewrite IH; auto. Qed.
Lemma foldM_ext {S A} (f g : S -> A -> option S) l s : (forall s a, f s a = g s a) -> foldM f l s = foldM g l s.
Proof. intros H. revert s; induction l as [|a l IH]; intros s; cbn; auto. rewrite H. destruct (g s a); cbn [bind]; auto. Qed.
(** initial messages: written twice, read once *)
Lemma set2_twice {A} (m : list (list A)) i j x m' : set2 m i j x = Some m' -> set2 m' i j x = Some m'.
Proof.
  unfold set2. destruct (get m i) as [r|] eqn:G; [|discriminate]. cbn [bind].
  destruct (set r j x) as [r'|] eqn:S; [|discriminate]. cbn [bind]. intros S2.
  apply set_Some in S, S2. destruct S as [L ->], S2 as [L2 ->].
  rewrite get_upd, Nat.eqb_refl by auto. cbn [bind].
  rewrite set_lt by (rewrite upd_length; auto). cbn [bind].
  rewrite set_lt by (rewrite upd_length; auto). rewrite !upd_upd. reflexivity.
Qed.
Lemma py_ksat_initial_eq nv f metrics : y_nc f = length (y_conx f) ->
  py_ksat_initial nv (y_nc f) (y_conx f) metrics = initial_messages nv f metrics.
Proof.
  intros _. unfold py_ksat_initial, initial_messages, np_zeros. apply foldM_ext. intros m i.
  destruct (get (y_conx f) i); cbn [bind]; auto. apply foldM_ext. intros s v.
  destruct (get metrics v); cbn [bind]; auto. destruct (set2 s i v n) eqn:E; cbn [bind]; auto.
  eapply set2_twice; eauto.
Qed.

(** ** KC-MWM *)
Section KcMwm.
Variables (T D P : nat) (flag : bool) (alpha : Qc).
Variables (W : list (list nat)) (R : list (list Qc)) (reward : list Qc) (caps : list nat).
Variable t0 : list (list num).
Hypothesis HW : shape D T W.
Hypothesis HR : shape P T R.
Hypothesis Hrew : length reward = T.
Hypothesis Hcaps : length caps = D.
Hypothesis Hpart : forall d ws, get W d = Some ws -> participants T ws <> [].
Hypothesis Hfit : forall d ws cap, get W d = Some ws -> get caps d = Some cap -> Forall (fun w => w <= cap) ws.
Let nzs := map (participants T) W.
Hypothesis Htwo : forall d1 d2 d3 l, d1 < D -> d2 < D -> d3 < D ->
  In l (nth d1 nzs []) -> In l (nth d2 nzs []) -> In l (nth d3 nzs []) -> d1 = d2 \/ d1 = d3 \/ d2 = d3.
Hypothesis HP : 2 <= P.
Hypothesis HT : 2 <= T.
Hypothesis HD : D <> 0.
Hypothesis HPT : P <> T.
Hypothesis Halpha : flag = true -> alpha <> 0%Qc.
Let sizes := map (@length nat) nzs.
Let inp := {| kc_reward_team := map Fin reward; kc_team2knapsack := t0; kc_weights := W;
              kc_reward_project := inj R; kc_max_state := caps; kc_nonzero := nzs |}.

Definition off_silent (K : list (list Qc)) : Prop :=
  forall d x, d < D -> x < T -> nth x (nth d W []) 0 = 0 -> qat K d x = 0%Qc.

Lemma departments_same K Dm dummy : shape D T K -> shape D T Dm -> shape D T dummy ->
  (forall d, d < D -> dept_row T W caps K Dm d) ->
  py_kc_departments T D caps W (inj K) dummy = Some (inj Dm).
Proof.
  intros SK SD Sd HDm. unfold py_kc_departments.
  match goal with |- context [for_up 0 D ?st0 ?bd] =>
    destruct (for_up_ind 0 D st0 bd (fun i a => shape D T a /\
      forall d, d < i -> get a d = Some (map Fin (nth d Dm [])))) as (a & E & S & G) end.
  - lia.
  - split; auto. intros; lia.
  - intros i a Hi (S & G). destruct (get_lt caps i) as [cap Gc]; [lia|]. rewrite Gc; cbn [bind].
    rewrite (get_inj D T) by (auto; lia). cbn [bind].
    destruct (get_lt W i) as [ws Gw]; [destruct HW; lia|]. rewrite Gw; cbn [bind].
    assert (Lw : length ws = T) by (eapply shape_row; eauto).
    assert (LK : length (nth i K []) = T) by (apply (shape_nth D T); auto; lia).
    destruct (py_department_ok T cap ws (nth i K []) Lw LK) as (o & Eo & Lo & A & B).
    { intros t Ht. pose proof (Hfit i ws cap Gw Gc) as X. rewrite Forall_forall in X. apply X, nth_In. lia. }
    { exact (Hpart i ws Gw). }
    rewrite Eo; cbn [bind]. rewrite set_lt by (destruct S; lia). eexists; split; [reflexivity|].
    split; [apply shape_updr; auto|]. intros d Hd. rewrite get_upd by (destruct S; lia).
    destruct (Nat.eqb_spec i d) as [<-|N]; [|apply G; lia]. f_equal.
    assert (LD : length (nth i Dm []) = T) by (apply (shape_nth D T); auto; lia).
    destruct (HDm i ltac:(lia) ws cap Gw Gc) as [M1 M2].
    apply list_ext_get; [rewrite map_length; lia|]. intros t Ht. rewrite Lo in Ht.
    rewrite (get_mapFin _ _ T) by auto. change (nth t (nth i Dm []) 0%Qc) with (qat Dm i t).
    destruct (in_dec Nat.eq_dec t (part T ws)) as [I|I].
    + apply In_nth_error in I as [p Hp]. destruct (A p t Hp) as (q & -> & Mq). f_equal.
      eapply minsum_message_unique; [exact Mq|]. apply M1. exact Hp.
    + rewrite B by auto. f_equal. unfold n0. f_equal. symmetry. apply M2; auto.
      destruct (Nat.eq_dec (nth t ws 0) 0); auto. exfalso. apply I. unfold part. apply filter_In.
      split; [apply in_seq; lia|]. apply negb_true_iff, Nat.eqb_neq. auto.
  - rewrite E. f_equal. apply list_ext_get; [unfold inj; rewrite map_length; destruct S, SD; lia|].
    intros d Hd. destruct S as [S1 S2]. rewrite G by lia. rewrite (get_inj D T) by (auto; lia). reflexivity.
Qed.

Definition kc_rel (i : nat) (p : kp_state) (s : kc_state) : Prop :=
  kc_fin T D P s /\ shape D T (kp_dummy p) /\ kp_t2k p = kc_t2k s /\ off_silent (unm (kc_t2k s)) /\
  (on flag alpha = true -> 0 < i -> kp_old p = Some (kc_extr_old s)) /\
  kp_eq2oric p = kc_eq2oric s /\ kc_intrinsic s = concat (kp_intrinsic p) /\ shape P T (kp_intrinsic p) /\
  kp_oric2team p = kc_oric2team s /\
  (0 < i -> exists e, kp_extr_team p = Some e /\ py_extrinsic_team (kc_extr s) (kc_oric2team s) = Some e).

Definition small (p : kp_state) : Prop := Forall (fun v => nleb v (zn 1000000) = true) (kp_oric2team p).

Lemma kc_step_same i p s : kc_rel i p s ->
  (forall p', py_kc_step flag (Fin alpha) T D P caps W (map Fin reward) (inj R) p i = Some p' -> small p') \/
  (forall s', kc_step flag (Fin alpha) T D P inp sizes s i = Some s' -> forall t, t < T ->
     exists pr, pr < P /\ (qat (unm (kc_eq2oric s')) pr t <= zq 1000000)%Qc) ->
  exists p' s', py_kc_step flag (Fin alpha) T D P caps W (map Fin reward) (inj R) p i = Some p' /\
    kc_step flag (Fin alpha) T D P inp sizes s i = Some s' /\ kc_rel (i + 1) p' s'.
Proof.
  intros (F & Sd & E1 & Z & Hold & E2 & _ & _ & _ & _) Hsm.
  destruct (kc_step_sem T D P flag alpha W R reward caps t0) with (st := s) (iter := i)
    as (s' & E & F' & Q & HX & HO & _); auto.
  fold nzs inp sizes in E.
  destruct F as (F1 & F2 & F3 & F4 & F5 & F6 & F7 & F8 & F9 & F10 & F11).
  pose proof F' as (G1 & G2 & G3 & G4 & G5 & G6 & G7 & G8 & G9 & G10 & G11).
  destruct Q as (Q1 & _ & _ & _ & _ & _ & _ & Q8).
  assert (E0 := E). unfold kc_step in E.
  match type of E with context [for_up 0 D ?a ?b] => destruct (for_up 0 D a b) as [[[dm ol] ex]|] eqn:C0; [|discriminate] end.
  cbn [bind] in E. cbn [kc_reward_team kc_reward_project kc_nonzero inp] in E.
  destruct (team_to_oric_update T ex (kc_team2oric s) (map Fin reward)) as [t2o|] eqn:C1; [|discriminate]. cbn [bind] in E.
  destruct (oric_to_project_update P T (kc_eq2oric s) t2o (kc_oric2eq s) (kc_eq2project s) (inj R)) as [[o2e e2p]|] eqn:C2; [|discriminate].
  cbn [bind] in E.
  destruct (project_update T e2p (kc_project2eq s)) as [p2e|] eqn:C3; [|discriminate]. cbn [bind] in E.
  destruct (project_to_oric_update p2e (kc_eq2oric s) (inj R)) as [e2o|] eqn:C4; [|discriminate]. cbn [bind] in E.
  destruct (oric_to_team_update e2o (kc_oric2team s)) as [o2t|] eqn:C5; [|discriminate]. cbn [bind] in E.
  destruct (intrinsic_out_mwm T o2e p2e (inj R) (kc_intrinsic s)) as [intr|] eqn:C6; [|discriminate]. cbn [bind] in E.
  destruct (team_to_knapsack D T nzs (kc_t2k s) (map Fin reward) ex o2t) as [t2k|] eqn:C7; [|discriminate]. cbn [bind] in E.
  injection E as <-.
  cbn [kc_t2k kc_dummy kc_extr_old kc_extr kc_team2oric kc_oric2team kc_eq2oric kc_oric2eq kc_eq2project kc_project2eq kc_intrinsic] in *.
  destruct (finm_unm _ _ _ F1) as [EK SK]. destruct (finm_unm _ _ _ F3) as [EO SO].
  destruct (finm_unm _ _ _ F7) as [EE SE]. destruct (finm_unm _ _ _ G2) as [Edm Sdm].
  destruct (finm_unm _ _ _ G4) as [Eex Sex]. destruct (finm_unm _ _ _ G3) as [Eol Sol].
  destruct (finv_unv _ _ G5) as [Et2o Lt2o]. destruct (finm_unm _ _ _ G8) as [Eo2e So2e].
  destruct (finm_unm _ _ _ G9) as [Ee2p Se2p]. destruct (finm_unm _ _ _ G10) as [Ep2e Sp2e].
  destruct (finm_unm _ _ _ G7) as [Ee2o Se2o]. destruct (finv_unv _ _ G6) as [Eo2t Lo2t].
  unfold py_kc_step. unfold py_kc_step in Hsm. rewrite E1, E2 in *.
  rewrite EK in Hsm |- *.
  rewrite (departments_same _ (unm dm)) in Hsm |- * by auto. cbn [bind] in Hsm |- *.
  destruct (py_filtering_ok flag alpha i D T (unm dm) (kp_old p) (unm (kc_extr_old s))) as (Qf & old' & B1 & SQ & HQ & Hq); auto.
  { rewrite <- EO. auto. }
  rewrite B1 in Hsm |- *. cbn [bind] in Hsm |- *.
  assert (Qf = unm ex) as ->.
  { apply (qmat_ext D T); auto. intros d x Hd Hx. rewrite HQ, HX by auto. reflexivity. }
  destruct (team_to_oric_same D T (unm ex) reward (kc_team2oric s)) as (v & B2 & B2' & _); auto using finv_length.
  rewrite <- Eex, C1 in B2'. injection B2' as <-. rewrite B2 in Hsm |- *. cbn [bind] in Hsm |- *.
  destruct (oric_same P T (unm (kc_eq2oric s)) R (unv t2o) (kc_oric2eq s) (kc_eq2project s)) as (a & b & B3 & B3' & _); auto using finm_shape.
  rewrite <- EE, <- Et2o in B3'. rewrite C2 in B3'. injection B3' as <- <-.
  rewrite <- EE, <- Et2o in B3. rewrite B3 in Hsm |- *. cbn [bind] in Hsm |- *.
  replace (negb (P =? T)) with true in Hsm |- * by (symmetry; apply negb_true_iff, Nat.eqb_neq; auto).
  destruct (project_same P T (unm e2p) (kc_project2eq s)) as (a & B4 & B4' & _); auto using finm_shape.
  rewrite <- Ee2p in B4, B4'. rewrite C3 in B4'. injection B4' as <-. rewrite B4 in Hsm |- *. cbn [bind] in Hsm |- *.
  destruct (project_to_oric_same P T (unm p2e) R (kc_eq2oric s)) as (a & B5 & B5' & _); auto using finm_shape.
  rewrite <- Ep2e in B5, B5'. rewrite C4 in B5'. injection B5' as <-. rewrite B5 in Hsm |- *. cbn [bind] in Hsm |- *.
  pose proof (py_oric_to_team_ok P T (unm e2o) Se2o ltac:(lia)) as B6. rewrite <- Ee2o in B6.
  assert (Fo : exists oq, map (fun t => nmins (map Fin (col (unm e2o) P t))) (seq 0 T) = map Fin oq).
  { exists (map (fun t => unfin (nmins (map Fin (col (unm e2o) P t)))) (seq 0 T)). rewrite map_map. apply map_ext.
    intros t. destruct (nmins_Fin (col (unm e2o) P t)) as (q & -> & _); auto.
    intros X. apply (f_equal (@length _)) in X. rewrite col_length in X. cbn in X. lia. }
  destruct Fo as (oq & Eoq). assert (Loq : length oq = T).
  { apply (f_equal (@length _)) in Eoq. rewrite !map_length, seq_length in Eoq. auto. }
  assert (B6q := B6). rewrite Eoq in B6q. rewrite B6q in Hsm |- *. cbn [bind] in Hsm |- *.
  destruct (intrinsic_same P T (unm o2e) (unm p2e) R (kc_intrinsic s)) as (Qi & B7 & SQi & B7'); auto using finv_length.
  rewrite <- Eo2e, <- Ep2e in B7, B7'. rewrite C6 in B7'. injection B7' as ->. rewrite B7 in Hsm |- *. cbn [bind] in Hsm |- *.
  assert (Hne : Forall (fun w => part T w <> []) W).
  { apply Forall_forall. intros w Iw. apply In_nth_error in Iw as [d Hd]. apply (Hpart d w Hd). }
  destruct (py_team_ok D T W reward oq (unm ex)) as (t2k' & B8 & S8 & A8 & Z8); auto; try (destruct HW; auto; fail).
  rewrite B8 in Hsm |- *. cbn [bind] in Hsm |- *.
  destruct (extrinsic_team_same D T (unm ex) oq (repeat n0 T)) as (et & B9 & _ & _); auto using repeat_length.
  rewrite B9 in Hsm |- *. cbn [bind] in Hsm |- *.
  assert (o2t = map Fin oq).
  { destruct (oric_team_same P T (unm e2o) (kc_oric2team s)) as (o & X1 & X2); auto using finv_length; [lia| |].
    - intros t Ht. destruct Hsm as [Hsm|Hsm]; [|exact (Hsm _ E0 t Ht)].
      pose proof (Hsm _ eq_refl) as Hs. unfold small in Hs. cbn [kp_oric2team] in Hs. rewrite <- Eoq in Hs. rewrite Forall_forall in Hs.
      assert (I : In (nmins (map Fin (col (unm e2o) P t))) (map (fun t => nmins (map Fin (col (unm e2o) P t))) (seq 0 T))).
      { apply in_map_iff. exists t. split; auto. apply in_seq. lia. }
      apply Hs in I. destruct (nmins_Fin (col (unm e2o) P t)) as (q & Eq & Iq).
      { intros X. apply (f_equal (@length _)) in X. rewrite col_length in X. cbn in X. lia. }
      rewrite Eq in I. unfold col in Iq. apply in_map_iff in Iq as (pr & <- & Ip). apply in_seq in Ip.
      exists pr. split; [lia|]. unfold zn in I. cbn [nleb nlt] in I. apply negb_true_iff in I. destruct (qltb_spec (zq 1000000) (qat (unm e2o) pr t)); [discriminate|]. qlra.
    - rewrite <- Ee2o in X1, X2. congruence. }
  subst o2t.
  do 2 eexists. split; [reflexivity|]. split; [exact E0|].
  assert (S7 : shape D T t2k) by (eapply finm_shape; eauto).
  assert (t2k' = t2k).
  { destruct (team_to_knapsack_ok D T nzs reward oq (unm ex)) with (t2k := kc_t2k s) as (tk & X1 & X2 & X3 & X4); auto using finm_shape.
    { unfold nzs. rewrite map_length. destruct HW; auto. }
    { unfold nzs. apply Forall_map, Forall_forall. intros ws _. split; [apply participants_incr|].
      apply Forall_forall. intros t Ht. unfold participants in Ht. apply filter_In in Ht. destruct Ht as [Ht _].
      apply in_seq in Ht. lia. }
    rewrite <- Eex in X1. rewrite C7 in X1. injection X1 as <-.
    apply (shape_ext D T); auto. intros d l Hd Hl. destruct (in_dec Nat.eq_dec l (nth d nzs [])) as [I|I].
    - rewrite A8, X3 by auto. reflexivity.
    - rewrite Z8, X4 by auto. rewrite EK, (get2_inj D T) by auto. unfold n0. f_equal. f_equal. symmetry. apply Z; auto.
      destruct (Nat.eq_dec (nth l (nth d W []) 0) 0) as [|N]; auto. destruct I. unfold nzs. apply (in_nz T D W reward caps HW Hrew Hcaps d l); auto. }
  subst t2k'.
  unfold kc_rel. cbn [kp_t2k kp_dummy kp_old kp_eq2oric kp_oric2team kp_intrinsic kp_extr_team
    kc_t2k kc_dummy kc_extr_old kc_extr kc_team2oric kc_oric2team kc_eq2oric kc_oric2eq kc_eq2project kc_project2eq kc_intrinsic].
  split; [exact F'|]. split; [apply shape_inj; auto|]. split; [auto|]. split.
  { intros d x Hd Hx Hz. destruct (Q8 d x Hd Hx) as [_ Q9]. rewrite Q9 by auto. apply Z; auto. }
  split. { intros On _. rewrite Hq by auto. f_equal. rewrite Eol. f_equal. apply (qmat_ext D T); auto.
    intros d x Hd Hx. symmetry. apply HO; auto. }
  split; [auto|]. split; [auto|]. split; [auto|]. split; [auto|].
  intros _. exists et. split; auto. rewrite Eex. exact B9.
Qed.

Lemma concat_zeros n k : concat (np_zeros n k) = repeat n0 (n * k).
Proof. unfold np_zeros. induction n; cbn; auto. rewrite IHn, repeat_app. reflexivity. Qed.

Lemma kc_run_same iters K : shape D T K -> t0 = inj K -> off_silent K ->
  (forall i p, 0 < i <= iters -> for_up 0 i (kp_init T D P t0)
     (py_kc_step flag (Fin alpha) T D P caps W (map Fin reward) (inj R)) = Some p -> small p) ->
  exists p s ext, for_up 0 iters (kp_init T D P t0)
      (py_kc_step flag (Fin alpha) T D P caps W (map Fin reward) (inj R)) = Some p /\
    kc_iterate flag (Fin alpha) T D P iters inp sizes = Some (s, ext) /\
    kc_intrinsic s = concat (kp_intrinsic p) /\ shape P T (kp_intrinsic p) /\
    (0 < iters -> kp_extr_team p = Some ext) /\ length ext = T.
Proof.
  intros SK Et HZ Hsm. unfold kc_iterate. cbn [kc_team2knapsack inp].
  destruct (for_up_sim iters (kp_init T D P t0) (kc_init T D P t0)
     (py_kc_step flag (Fin alpha) T D P caps W (map Fin reward) (inj R))
     (kc_step flag (Fin alpha) T D P inp sizes)
     (fun i p s => for_up 0 i (kp_init T D P t0)
       (py_kc_step flag (Fin alpha) T D P caps W (map Fin reward) (inj R)) = Some p /\ kc_rel i p s)) as (p & s & E1 & E2 & _ & Q).
  - split; [reflexivity|]. unfold kc_rel, kp_init, kc_init, kc_fin.
    cbn [kp_t2k kp_dummy kp_old kp_eq2oric kp_oric2team kp_intrinsic kp_extr_team
    kc_t2k kc_dummy kc_extr_old kc_extr kc_team2oric kc_oric2team kc_eq2oric kc_oric2eq kc_eq2project kc_project2eq kc_intrinsic].
    rewrite concat_zeros. 
    repeat match goal with |- _ /\ _ => split end; auto using finm_zeros, finv_zeros; try lia.
    + exists K; auto.
    + apply shape_repeat.
    + rewrite Et, unm_inj. auto.
    + apply shape_repeat.
  - intros i a b Hi (Ea & Q). destruct (kc_step_same i a b Q) as (p' & s' & X1 & X2 & X3).
    + left. intros p' Ep. apply (Hsm (i + 1)); [lia|]. rewrite for_up_S, Ea. exact Ep.
    + exists p', s'. repeat (split; auto). rewrite for_up_S, Ea. exact X1.
  - fold nzs sizes. rewrite E1, E2. cbn [bind].
    destruct Q as (F & _ & _ & _ & _ & _ & Q1 & Q2 & Q3 & Q4).
    pose proof F as (F1 & F2 & F3 & F4 & F5 & F6 & F7 & F8 & F9 & F10 & F11).
    destruct (finm_unm _ _ _ F4) as [EX SX]. destruct (finv_unv _ _ F6) as [EO LO].
    destruct (extrinsic_team_same D T (unm (kc_extr s)) (unv (kc_oric2team s)) (repeat n0 T)) as (e & X1 & X2 & X3); auto using repeat_length.
    rewrite <- EX, <- EO in X1, X2. rewrite X2. cbn [bind]. exists p, s, e. repeat (split; auto).
    intros H. destruct (Q4 H) as (e' & Y1 & Y2). congruence.
Qed.
End KcMwm.
