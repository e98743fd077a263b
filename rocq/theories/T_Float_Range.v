(** * C73 and C74 with the ranges of the messages: no hypothesis on the run. *)
From Verif Require Import SpecRound P_Round P_Float P_Float_Tsp P_Float_Ksat P_Float_Kc T_Float_Tsp T_Float_Ksat T_Float_Kc.
From Verif Require Import NumFacts Arr ArrFacts MinSum M_Kc_Trellis M_InOut P_InOut M_Runs P_Runs M_Kc_Py M_Float P_Tsp_Constraints P_Equality P_Schedule.
From Verif Require P_Knapsack P_Ksat_Range P_Ksat_Run.
From Verif Require Import SpecLiterals.
From Verif Require Import SpecRun SpecRange P_Kc_Range P_Kc_States T_InOut T_PyRef_Run T_Kc_Range.
From Verif Require Import Spec Num.
Local Open Scope nat_scope.

Definition gridq1 (e : Z) (l : list Z) : list Qc := map (fun z => (zq z * pow2 e)%Qc) l.
Definition gridq (e : Z) (m : list (list Z)) : list (list Qc) := map (gridq1 e) m.
Definition start_z (W : list (list nat)) (reward : list Z) : list Z :=
  concat (map (fun row => map (fun j => if negb (nth j row 0 =? 0) then nth j reward 0%Z else 0%Z) (seq 0 (length row))) W).

Lemma grid1_q e l : grid1 e l = map Fin (gridq1 e l).
Proof. unfold grid1, gridq1. rewrite map_map. reflexivity. Qed.
Lemma grid1_concat e m : grid1 e (concat m) = concat (inj (gridq e m)).
Proof.
  unfold grid1, inj, gridq, gridq1. rewrite concat_map, !map_map. f_equal. apply map_ext. intros l. rewrite map_map. reflexivity.
Qed.
Lemma zero_grid e : Fin (zq 0 * pow2 e)%Qc = n0.
Proof. unfold n0. f_equal. change (zq 0) with 0%Qc. ring. Qed.
Lemma start_grid e W reward : grid1 e (start_z W reward) = concat (py_team_messages W (grid1 e reward)).
Proof.
  unfold start_z, py_team_messages, grid1. rewrite concat_map, map_map. f_equal. apply map_ext. intros row. rewrite map_map.
  apply map_ext. intros j. destruct (negb (nth j row 0 =? 0)); [|apply zero_grid].
  rewrite <- (zero_grid e). symmetry. apply (map_nth (fun z => Fin (zq z * pow2 e)%Qc)).
Qed.
Lemma start_small W reward b : (0 <= b)%Z -> Forall (fun z => (Z.abs z <= b)%Z) reward -> Forall (fun z => (Z.abs z <= b)%Z) (start_z W reward).
Proof.
  intros Hb H. unfold start_z. apply Forall_concat, Forall_map, Forall_forall. intros row _. apply Forall_map, Forall_forall. intros j _.
  destruct (negb (nth j row 0 =? 0)); [|cbn; lia]. destruct (nth_in_or_default j reward 0%Z) as [I | ->]; [|cbn; lia].
  rewrite Forall_forall in H. auto.
Qed.

Lemma zq_mono a b : (a <= b)%Z -> (zq a <= zq b)%Qc.
Proof. intros H. unfold Qcle, zq, Q2Qc. cbn [this]. rewrite !Qred_correct. unfold Qle. cbn. lia. Qed.
Lemma grid_range e b z : (Z.abs z <= b)%Z -> (- (zq b * pow2 e) <= zq z * pow2 e /\ zq z * pow2 e <= zq b * pow2 e)%Qc.
Proof.
  intros H. assert (U : (0 <= pow2 e)%Qc) by (apply Qclt_le_weak, pow2_pos). split.
  - replace (- (zq b * pow2 e))%Qc with (zq (- b) * pow2 e)%Qc by (rewrite zq_opp; ring).
    apply Qcmult_le_compat_r; auto. apply zq_mono; lia.
  - apply Qcmult_le_compat_r; auto. apply zq_mono; lia.
Qed.
Lemma lim_units e b D T : let B := (zq b * pow2 e)%Qc in
  (B + B + B + B + qn D * (qn T * (B + B)))%Qc = (zq ((4 + 2 * (Z.of_nat D * Z.of_nat T)) * b) * pow2 e)%Qc.
Proof.
  cbn zeta. unfold qn. rewrite !zq_mul, zq_add, !zq_mul.
  replace (zq 4) with (1 + 1 + 1 + 1)%Qc by (apply Qc_is_canon; reflexivity).
  replace (zq 2) with (1 + 1)%Qc by (apply Qc_is_canon; reflexivity). ring.
Qed.

(** Whole multiples of a power of two up to [b] units, no filtering: whatever the number of iterations, the call in
    floating-point arithmetic returns what the exact call returns, if [(4 D + 1) (4 T + 2) + 9] times the larger of 10^6 and
    [(4 + 2 D T) b] fits into the significand. *)
Theorem C74_kc_mwm_any_iterations :
  forall prec emin emax rnd e b T D P (W : list (list nat)) (R : list (list Z)) (reward : list Z) (caps : list nat)
    iters (flag : bool) (alpha : Qc),
  keeps (binary prec emin emax) rnd -> (emin <= e <= emax)%Z -> (e <= 0)%Z -> (flag = false \/ alpha = 0%Qc) ->
  kc_instance T D P W (gridq e R) (gridq1 e reward) caps -> P <> 0 -> (0 <= b)%Z ->
  Forall (fun z => (Z.abs z <= b)%Z) reward -> Forall (Forall (fun z => (Z.abs z <= b)%Z)) R ->
  (((4 * Z.of_nat D + 1) * (4 * Z.of_nat T + 2) + 9) *
     Z.max (1000000 * 2 ^ (- e)) ((4 + 2 * (Z.of_nat D * Z.of_nat T)) * b) < 2 ^ prec)%Z ->
  let nz := py_nonzero W in
  wrapper_kc_mwm_f rnd iters D T P (concat (py_team_messages W (grid1 e reward))) caps (grid1 e reward) (concat (inj (gridq e R)))
    (concat W) (concat (py_pad nz)) (map (@length nat) nz) (list_max (map (@length nat) nz)) flag (Fin alpha)
  = wrapper_kc_mwm iters D T P (concat (py_team_messages W (grid1 e reward))) caps (grid1 e reward) (concat (inj (gridq e R)))
    (concat W) (concat (py_pad nz)) (map (@length nat) nz) (list_max (map (@length nat) nz)) flag (Fin alpha).
Proof.
  intros prec emin emax rnd e b T D P W R reward caps iters flag alpha Hr He He0 Hf Inst HP Hb Br BR L nz.
  set (B := Z.max (1000000 * 2 ^ (- e)) ((4 + 2 * (Z.of_nat D * Z.of_nat T)) * b)) in *.
  destruct (instance_parts _ _ _ _ _ _ _ Inst) as (Q1 & Q2).
  pose proof Inst as (HW & HR & Hrw & Hc & Hp & Hfit & Htwo).
  assert (Bb : (b <= B)%Z).
  { assert (0 <= Z.of_nat D * Z.of_nat T)%Z by (apply Z.mul_nonneg_nonneg; lia). unfold B. nia. }
  assert (W1 : forall l, Forall (fun z => (Z.abs z <= b)%Z) l -> Forall (fun z => (Z.abs z <= B)%Z) l).
  { intros l. apply Forall_impl. intros z Hz. lia. }
  rewrite <- (start_grid e W reward), <- grid1_concat.
  apply C74_kc_mwm with (prec := prec) (emin := emin) (emax := emax) (B := B); auto.
  - apply Z.le_max_l.
  - destruct Hf as [->| ->]; auto.
  - unfold nz, py_nonzero. rewrite map_map. apply Forall_map, Forall_forall. intros row I.
    destruct HW as [_ F]. rewrite Forall_forall in F. rewrite <- (F row I). rewrite <- (seq_length (length row) 0) at 2.
    apply P_Knapsack.filter_length_le.
  - apply W1, start_small; auto.
  - apply Forall_concat. eapply Forall_impl; [|exact BR]. intros l Hl. apply W1, Hl.
  - intros inp t st Hi Ht E. rewrite start_grid, grid1_concat, grid1_q in Hi.
    destruct (C26_kc_inputs T D P W (inj (gridq e R)) (map Fin (gridq1 e reward)) caps) as (inp' & E' & A1 & A2 & A3 & A4 & A5 & A6 & A7);
      auto using P_Tsp_Constraints.shape_inj.
    { rewrite map_length; auto. }
    cbn zeta in E'. fold nz in E'. rewrite E' in Hi. injection Hi as <-.
    assert (Ei : inp' = {| kc_reward_team := map Fin (gridq1 e reward); kc_team2knapsack := kc_team2knapsack inp';
        kc_weights := W; kc_reward_project := inj (gridq e R); kc_max_state := caps; kc_nonzero := map (participants T) W |}).
    { destruct inp'; cbn in *; subst; reflexivity. }
    assert (En : nz = map (participants T) W).
    { unfold nz, py_nonzero. apply map_ext_in. intros r Hin. unfold participants.
      destruct HW as [_ F]. rewrite Forall_forall in F. rewrite (F r Hin). reflexivity. }
    assert (Start : forall d t, d < D -> t < T ->
       get2 (kc_team2knapsack inp') d t = Some (Fin (if takes_part W d t then nth t (gridq1 e reward) 0%Qc else 0%Qc))).
    { intros d t' Hd Ht'. destruct (ArrFacts.get2_lt _ _ _ d t' HW Hd Ht') as [w Gw].
      rewrite (A7 d t' w (Fin (nth t' (gridq1 e reward) 0%Qc)) Gw).
      2:{ apply (P_Equality.get_mapFin _ _ T); auto. }
      assert (Ew : nth t' (nth d W []) 0 = w).
      { unfold get2 in Gw. destruct (get W d) as [r|] eqn:G1; [|discriminate]. cbn [bind] in Gw.
        unfold get in G1, Gw. rewrite (nth_error_nth _ _ _ G1). apply nth_error_nth; exact Gw. }
      unfold takes_part. rewrite Ew. destruct (w =? 0); reflexivity. }
    assert (F0 : finm D T (kc_team2knapsack inp')).
    { apply finm_of; auto. intros d t' Hd Ht'. rewrite Start by auto. eauto. }
    assert (U : (0 <= pow2 e)%Qc) by (apply Qclt_le_weak, pow2_pos).
    rewrite Ei in E at 2. rewrite En in E.
    refine (kc_all_impl _ _ st _ (kc_all_range T D P flag alpha W (gridq e R) (gridq1 e reward) caps (kc_team2knapsack inp')
      HW HR Hrw Hc Q1 Hfit Q2 F0 _ _ (zq b * pow2 e)%Qc _ HP t st E)).
    + intros [q| | |]; cbn; auto. rewrite lim_units. intros [X1 X2].
      assert (Y : (zq ((4 + 2 * (Z.of_nat D * Z.of_nat T)) * b) * pow2 e <= zq B * pow2 e)%Qc).
      { apply Qcmult_le_compat_r; auto. apply zq_mono. apply Z.le_max_r. }
      split; qlra.
    + intros d x Hd Hx. apply (qat_unm D T); auto using finm_shape.
    + intros Fl. destruct Hf as [Hf|Hf]; [congruence|]. rewrite Hf. split; qlra.
    + split; [|split].
      * replace 0%Qc with (zq 0 * pow2 e)%Qc by (change (zq 0) with 0%Qc; ring). apply Qcmult_le_compat_r; auto. apply zq_mono; lia.
      * intros x Hx. unfold gridq1. replace 0%Qc with (zq 0 * pow2 e)%Qc by (change (zq 0) with 0%Qc; ring).
        rewrite (map_nth (fun z => (zq z * pow2 e)%Qc)). apply grid_range.
        destruct (nth_in_or_default x reward 0%Z) as [I | ->]; [|cbn; lia]. rewrite Forall_forall in Br; auto.
      * intros p x Hp' Hx. unfold qat, gridq. change (@nil Qc) with (gridq1 e []). rewrite map_nth. unfold gridq1.
        replace 0%Qc with (zq 0 * pow2 e)%Qc by (change (zq 0) with 0%Qc; ring).
        rewrite (map_nth (fun z => (zq z * pow2 e)%Qc)). apply grid_range.
        destruct (nth_in_or_default p R []) as [I | ->]; [|destruct x; cbn; lia].
        rewrite Forall_forall in BR. specialize (BR _ I).
        destruct (nth_in_or_default x (nth p R []) 0%Z) as [I' | ->]; [|cbn; lia]. rewrite Forall_forall in BR; auto.
Qed.

(** K-SAT: with [d] the largest number of clauses that contain the same literal, the iterations cost a factor of
    [1 + d + ... + d^iters] only. *)
Theorem C73_ksat_literals :
  forall prec emin emax rnd e b iters nv nc k d used (metrics : list Z) conx types (M : list (list Z)) varconx (flag : bool) (alpha : Qc),
  keeps (binary prec emin emax) rnd -> (emin <= e <= emax)%Z -> (flag = false \/ alpha = 0%Qc) ->
  2 <= k -> length metrics = nv -> shape nc k conx -> shape nc k types -> shape nc nv M ->
  (forall c cx tys, nth_error conx c = Some cx -> nth_error types c = Some tys -> clause_wf nv k cx tys) ->
  length varconx = nv -> Forall (fun x => x < nv) used ->
  (forall x l, nth_error varconx x = Some l -> NoDup l /\ Forall (fun c => c < nc) l) ->
  (forall j, j < nv -> ~ In j used -> nth j varconx [] = []) ->
  (forall x s, x < nv -> literal_count conx types x s <= d) ->
  (0 <= b)%Z -> Forall (fun z => (Z.abs z <= b)%Z) metrics -> at_most b M ->
  ((2 * Z.of_nat k * (Z.of_nat nc + 1) + 1) * (Z.of_nat (powers d (iters + 1)) * b) < 2 ^ prec)%Z ->
  wrapper_ksat_f rnd iters nv nc (length used) (Fin alpha) flag used (concat varconx) (map (@length nat) varconx)
    (concat conx) (concat types) (grid1 e metrics) (concat (grid e M)) k
  = wrapper_ksat iters nv nc (length used) (Fin alpha) flag used (concat varconx) (map (@length nat) varconx)
    (concat conx) (concat types) (grid1 e metrics) (concat (grid e M)) k.
Proof.
  intros prec emin emax rnd e b iters nv nc k d used metrics conx types M varconx flag alpha
    Hr He Hf Hk Lm Hc Ht HM Hwf Hv Hu Hin Hun Hd Hb Bm BM L.
  set (B := (Z.of_nat (powers d (iters + 1)) * b)%Z) in *.
  assert (P1 : 1 <= powers d (iters + 1)) by (replace (iters + 1) with (S iters) by lia; rewrite P_Ksat_Range.powers_S; lia).
  assert (Bb : (b <= B)%Z) by (unfold B; nia).
  assert (W1 : forall l, Forall (fun z => (Z.abs z <= b)%Z) l -> Forall (fun z => (Z.abs z <= B)%Z) l).
  { intros l. apply Forall_impl. intros z Hz. lia. }
  assert (Eg : grid e M = inj (gridq e M)).
  { unfold grid, inj, gridq, gridq1. rewrite map_map. apply map_ext. intros l. rewrite map_map. reflexivity. }
  assert (Sq : shape nc nv (gridq e M)).
  { destruct HM as [A1 A2]. split; unfold gridq; [rewrite map_length; auto|]. apply Forall_map. eapply Forall_impl; [|exact A2].
    intros l Hl. unfold gridq1. rewrite map_length. exact Hl. }
  apply C73_ksat with (prec := prec) (emin := emin) (emax := emax) (B := B); auto.
  - destruct Hf as [->| ->]; auto.
  - unfold formula_ok. split; [exact Hc|]. split; [exact Ht|]. split.
    + apply Forall_forall. intros tys I. apply In_nth_error in I as [c Gc].
      assert (Hlt : c < length conx) by (destruct Hc as [-> _], Ht as [<- _]; apply nth_error_Some; congruence).
      destruct (nth_error conx c) as [cx|] eqn:G1; [|apply nth_error_None in G1; lia].
      destruct (Hwf c cx tys G1 Gc) as (_ & _ & _ & _ & F). exact F.
    + split; [exact Hv|]. split; [|exact Hun]. apply Forall_forall. intros l I. apply In_nth_error in I as [x Gx].
      destruct (Hin x l Gx) as [ND F]. rewrite <- (seq_length nc 0). apply NoDup_incl_length; auto.
      intros c Ic. rewrite Forall_forall in F. apply in_seq. specialize (F c Ic). lia.
  - unfold at_most in *. eapply Forall_impl; [|exact BM]. exact W1.
  - lia.
  - intros t st Hle E. rewrite Eg in E. rewrite grid1_q in E.
    destruct (P_Ksat_Range.ksat_var_states nv nc k flag alpha conx types used (gridq1 e metrics) varconx (gridq e M))
      as (V & D & MM & V0 & HT & HS); auto.
    { destruct Hc; auto. } { destruct Ht; auto. } { unfold gridq1; rewrite map_length; auto. }
    cbn zeta in HS. destruct (HS t st E) as [-> SV].
    assert (X : P_Ksat_Range.V_in nv nc d (zq b * pow2 e)%Qc V t).
    { apply P_Ksat_Range.V_range with (k := k) (metrics := gridq1 e metrics) (conx := conx) (types := types) (V0 := gridq e M)
        (varconx := varconx) (flag := flag) (alpha := alpha) (D := D) (M := MM); auto.
      - destruct Hc; auto.
      - destruct Ht; auto.
      - intros i. apply HT.
      - intros i. apply HT.
      - intros i x l c G I. destruct (HT i) as (_ & _ & Q & _). apply (Q x l c); auto.
        destruct (in_dec Nat.eq_dec x used) as [Ux|Ux]; auto. exfalso.
        assert (Hx : x < nv) by (rewrite <- Hv; apply nth_error_Some; congruence).
        pose proof (Hun x Hx Ux) as Nn. rewrite (nth_error_nth _ _ _ G) in Nn. subst l. destruct I.
      - intros i c x l Hcl G I. destruct (HT i) as (_ & _ & _ & Q). apply Q; auto.
        + rewrite <- Hv; apply nth_error_Some; congruence.
        + intros (_ & l' & G' & I'). rewrite G in G'. injection G' as <-. contradiction.
      - replace 0%Qc with (zq 0 * pow2 e)%Qc by (change (zq 0) with 0%Qc; ring).
        apply Qcmult_le_compat_r; [apply zq_mono; lia|apply Qclt_le_weak, pow2_pos].
      - intros x Hx. unfold gridq1. replace 0%Qc with (zq 0 * pow2 e)%Qc by (change (zq 0) with 0%Qc; ring).
        rewrite (map_nth (fun z => (zq z * pow2 e)%Qc)). apply grid_range.
        destruct (nth_in_or_default x metrics 0%Z) as [I | ->]; [|cbn; lia]. rewrite Forall_forall in Bm; auto.
      - intros c x Hp' Hx. unfold qat, gridq. change (@nil Qc) with (gridq1 e []). rewrite map_nth. unfold gridq1.
        replace 0%Qc with (zq 0 * pow2 e)%Qc by (change (zq 0) with 0%Qc; ring).
        rewrite (map_nth (fun z => (zq z * pow2 e)%Qc)). apply grid_range.
        destruct (nth_in_or_default c M []) as [I | ->]; [|destruct x; cbn; lia].
        unfold at_most in BM. rewrite Forall_forall in BM. specialize (BM _ I).
        destruct (nth_in_or_default x (nth c M []) 0%Z) as [I' | ->]; [|cbn; lia]. rewrite Forall_forall in BM; auto.
      - intros Fl. destruct Hf as [Hf|Hf]; [congruence|]. rewrite Hf. split; qlra. }
    assert (LimB : (qn (powers d (t + 1)) * (zq b * pow2 e) <= zq B * pow2 e)%Qc).
    { unfold qn. replace (zq (Z.of_nat (powers d (t + 1))) * (zq b * pow2 e))%Qc with (zq (Z.of_nat (powers d (t + 1)) * b) * pow2 e)%Qc by (rewrite zq_mul; ring).
      apply Qcmult_le_compat_r; [apply zq_mono|apply Qclt_le_weak, pow2_pos]. unfold B. apply Z.mul_le_mono_nonneg_r; auto.
      apply inj_le, P_Ksat_Range.powers_mono. lia. }
    apply Forall_forall. intros row Ir. apply In_nth_error in Ir as [c Gc]. apply Forall_forall. intros v Iv. apply In_nth_error in Iv as [x Gx].
    unfold inj in Gc. rewrite nth_error_map in Gc. destruct (nth_error (V t) c) as [q|] eqn:G1; [|discriminate]. injection Gc as <-.
    rewrite nth_error_map in Gx. destruct (nth_error q x) as [a|] eqn:G2; [|discriminate]. injection Gx as <-.
    assert (Hcl : c < nc) by (destruct SV as [<- _]; apply nth_error_Some; congruence).
    assert (Hx : x < nv).
    { destruct SV as [_ F]. rewrite Forall_forall in F. rewrite <- (F q (nth_error_In _ _ G1)). apply nth_error_Some; congruence. }
    destruct (X c x Hcl Hx) as [X1 X2]. unfold qat in X1, X2. rewrite (nth_error_nth _ _ _ G1), (nth_error_nth _ _ _ G2) in X1, X2.
    cbn. split; qlra.
Qed.

(** ** Example: rewards in units of 1/1024, any number of iterations in double precision *)
Definition any_R : list (list Z) := [[-4000; -1001; -2003]; [-3002; -5001; -1999]]%Z.
Definition any_reward : list Z := [-1025; -2049; -3070]%Z.
Example C74_any_example :
  kc_instance 3 2 2 kcW (gridq (-10) any_R) (gridq1 (-10) any_reward) [3; 2] /\
  (forall iters,
     wrapper_kc_mwm_f ieee iters 2 3 2 (concat (py_team_messages kcW (grid1 (-10) any_reward))) [3; 2] (grid1 (-10) any_reward)
       (concat (inj (gridq (-10) any_R))) (concat kcW) [0; 1; 1; 2] [2; 2] 2 false n0
     = wrapper_kc_mwm iters 2 3 2 (concat (py_team_messages kcW (grid1 (-10) any_reward))) [3; 2] (grid1 (-10) any_reward)
       (concat (inj (gridq (-10) any_R))) (concat kcW) [0; 1; 1; 2] [2; 2] 2 false n0) /\
  option_map (fun r => map view (fst r))
    (wrapper_kc_mwm 3 2 3 2 (concat (py_team_messages kcW (grid1 (-10) any_reward))) [3; 2] (grid1 (-10) any_reward)
       (concat (inj (gridq (-10) any_R))) (concat kcW) [0; 1; 1; 2] [2; 2] 2 false n0) = Some [VFin (-125 # 32); VFin (-4879 # 1024); VFin (9051 # 1024)].
Proof.
  assert (I : kc_instance 3 2 2 kcW (gridq (-10) any_R) (gridq1 (-10) any_reward) [3; 2]).
  { pose proof (kc_instance3 (gridq (-10) any_R) ltac:(repeat constructor)) as (A1 & A2 & A3 & A4 & A5 & A6 & A7).
    exact (conj A1 (conj A2 (conj eq_refl (conj A4 (conj A5 (conj A6 A7)))))). }
  split; [exact I|]. split.
  - intros iters. apply (C74_kc_mwm_any_iterations 53 (-1074)%Z 971%Z ieee (-10)%Z 5001%Z 3 2 2 kcW any_R any_reward [3; 2] iters false 0%Qc ieee_keeps); auto; try (repeat constructor; cbn; lia).
  - vm_compute. reflexivity.
Qed.

(** Three implications in a circle, metrics in units of 1/1024: a million iterations are exact in double precision. *)
Lemma powers_1 n : powers 1 n = n.
Proof. induction n as [|n IH]; [reflexivity|]. rewrite P_Ksat_Range.powers_S, IH. lia. Qed.
Definition circle3 : list (list nat) := [[0; 1]; [1; 2]; [2; 0]].
Definition circle_types : list (list Z) := repeat [-1; 1]%Z 3.
Definition circle_metrics : list Z := [1000; -7; 300]%Z.
Example C73_literals_example :
  (forall c cx tys, nth_error circle3 c = Some cx -> nth_error circle_types c = Some tys -> clause_wf 3 2 cx tys) /\
  (forall x s, x < 3 -> literal_count circle3 circle_types x s <= 1) /\
  (forall iters, iters <= 1000 * 1000 ->
     wrapper_ksat_f ieee iters 3 3 3 n0 false [0; 1; 2] [0; 2; 0; 1; 1; 2] [2; 2; 2] (concat circle3) (concat circle_types)
       (grid1 (-10) circle_metrics) (concat (grid (-10) (repeat circle_metrics 3))) 2
     = wrapper_ksat iters 3 3 3 n0 false [0; 1; 2] [0; 2; 0; 1; 1; 2] [2; 2; 2] (concat circle3) (concat circle_types)
       (grid1 (-10) circle_metrics) (concat (grid (-10) (repeat circle_metrics 3))) 2) /\
  option_map (map view) (wrapper_ksat 5 3 3 3 n0 false [0; 1; 2] [0; 2; 0; 1; 1; 2] [2; 2; 2] (concat circle3) (concat circle_types)
       (grid1 (-10) circle_metrics) (concat (grid (-10) (repeat circle_metrics 3))) 2)
  = Some [VFin (793 # 512); VFin (2593 # 1024); VFin (1143 # 512)].
Proof.
  assert (A : forall c cx tys, nth_error circle3 c = Some cx -> nth_error circle_types c = Some tys -> clause_wf 3 2 cx tys).
  { intros [|[|[|c]]] cx tys H1 H2; cbn in H1, H2; try (destruct c; discriminate);
      injection H1 as <-; injection H2 as <-; unfold clause_wf, pm1;
      repeat split; auto; repeat constructor; auto; cbn; intuition discriminate. }
  assert (C : forall x s, x < 3 -> literal_count circle3 circle_types x s <= 1).
  { intros [|[|[|x]]] [|] H; cbn; lia. }
  split; [exact A|]. split; [exact C|]. split.
  - intros iters Hi.
    apply (C73_ksat_literals 53 (-1074)%Z 971%Z ieee (-10)%Z 1000%Z iters 3 3 2 1 [0; 1; 2] circle_metrics circle3 circle_types
      (repeat circle_metrics 3) [[0; 2]; [0; 1]; [1; 2]] false 0%Qc ieee_keeps); auto; try (repeat constructor; cbn; lia); try lia.
    + intros [|[|[|x]]] l H; cbn in H; try (destruct x; discriminate); injection H as <-;
        (split; [repeat constructor; cbn; intuition discriminate|repeat constructor]).
    + rewrite powers_1. change (2 ^ 53)%Z with 9007199254740992%Z. lia.
  - vm_compute. reflexivity.
Qed.

Print Assumptions C74_kc_mwm_any_iterations.
Print Assumptions C73_ksat_literals.
