(** * From the messages of a K-SAT call to its decisions *)
From Coq Require Import Permutation.
From Verif Require Import Num NumFacts Arr ArrFacts Spec SpecRun SpecForest MinSum MinSumFacts P_Ksat P_Tsp_Sched P_Tsp_Order.
From Verif Require Import M_Tsp_Run M_Ksat_Py P_Ksat_Py P_Ksat_Gen P_PyRef_Ksat P_Forest P_Ksat_Tree.
From Verif Require Import M_InOut M_Runs P_Runs P_Schedule T_Schedule T_Ksat_Py T_PyRef_Run.
Local Open Scope nat_scope.

Lemma fins_inj : forall a b : list Qc, map Fin a = map Fin b -> a = b.
Proof.
  induction a as [|a l IH]; intros [|b l'] Hab; try discriminate; [reflexivity|].
  injection Hab as H1 H2. f_equal; auto.
Qed.
Lemma get_In_nth {A} (l : list (list A)) c x : In x (nth c l []) -> exists r, nth_error l c = Some r /\ In x r.
Proof.
  intros H. destruct (nth_error l c) as [r|] eqn:E.
  - exists r. rewrite (nth_error_nth _ _ _ E) in H. auto.
  - apply nth_error_None in E. rewrite nth_overflow in H by lia. destruct H.
Qed.

(** costs of the variables that occur in the formula *)
Definition used_cost (f : formula) (metrics : list Qc) (u : nat) : Qc :=
  if mem u (y_used f) then nth u metrics 0%Qc else 0%Qc.

(** A generated formula: the facts needed to analyse the C++ call, and what its output decides. *)
Lemma call_basics nv k sol ord ord2 ord3 draws (metrics : list Qc) theta f :
    2 <= k -> length sol = nv -> Forall (valid_draw nv k) draws -> length metrics = nv ->
    (forall l, Permutation l (ord l)) -> (forall l, Permutation l (ord2 l)) -> (forall l, Permutation l (ord3 l)) ->
    create_formula nv k sol ord draws = Some f ->
  NoDup (y_used f) /\ exists M : list (list Qc),
    (* shape of the formula *)
    (initial_messages nv f (map Fin metrics) = Some (inj M) /\ length (y_conx f) = y_nc f /\ shape (y_nc f) k (y_conx f) /\ shape (y_nc f) k (y_types f) /\ shape (y_nc f) nv M /\
     (forall c cx tys, nth_error (y_conx f) c = Some cx -> nth_error (y_types f) c = Some tys -> clause_wf nv k cx tys) /\
     length (y_vconx f) = nv /\ Forall (fun x => x < nv) (y_used f) /\
     (forall x l, nth_error (y_vconx f) x = Some l -> NoDup l /\ forall c, In c l <-> In x (nth c (y_conx f) [])) /\
     (forall j, j < nv -> ~ In j (y_used f) -> nth j (y_vconx f) [] = []) /\
     (forall c u, In u (nth c (y_conx f) []) -> qat M c u = nth u metrics 0%Qc) /\
     (forall c u, In u (nth c (y_conx f) []) -> used_cost f metrics u = nth u metrics 0%Qc)) /\
    (* a call whose output decides for [x] reports [x] *)
    (forall x, length x = nv -> satisfies (y_conx f) (y_types f) x -> forall iters flag alpha post_process pp ext,
       wrapper_ksat iters nv (y_nc f) (length (y_used f)) (Fin alpha) flag (y_used f) (concat (y_vconx f))
         (map (@length nat) (y_vconx f)) (concat (y_conx f)) (concat (y_types f)) (map Fin metrics) (concat (inj M)) k
         = Some (map Fin ext) ->
       (forall w, In w (y_used f) ->
          if nth w x false then (nth w ext 0 + nth w metrics 0 < theta)%Qc else (theta < nth w ext 0 + nth w metrics 0)%Qc) ->
       exists o,
         py_ksat_run nv k sol ord draws (map Fin metrics) iters flag (Fin alpha) (Fin theta) post_process pp ord2 ord3
           = Some (f, map Fin ext, o) /\
         (forall v, In v (y_used f) -> nth_error (k_hd o) v = Some (bit (nth v x false))) /\
         k_flag o = true).
Proof.
  intros Hk Ls Hd Lm P1 P2 P3 Ef.
  destruct (create_formula_ok nv k sol ord draws) as (f' & Ef' & W & Q & N & _); auto; [lia|].
  assert (f' = f) by congruence. subst f'.
  destruct (consistent_facts nv k sol f Hk W Q) as (Wf & S1 & S2 & V1 & V2 & V3 & V4).
  destruct (initial_messages_ok nv f metrics W Lm) as (M & Em & SM & HM).
  pose proof (c_conx _ _ W) as Lc. pose proof (c_types _ _ W) as Lt.
  assert (HB : forall c u, In u (nth c (y_conx f) []) -> c < y_nc f /\ u < nv).
  { intros c u Hu'. destruct (get_In_nth _ _ _ Hu') as (r & Er' & Ir).
    assert (Lc' : c < y_nc f) by (rewrite <- Lc; apply nth_error_Some; congruence).
    split; [auto|]. destruct (Wf c r (nth c (y_types f) [])) as (_ & _ & _ & B & _); [auto|apply nth_error_nth'; lia|].
    rewrite Forall_forall in B. auto. }
  (* clause and variable view *)
  assert (Vw : forall y l, nth_error (y_vconx f) y = Some l ->
     NoDup l /\ forall c, In c l <-> In y (nth c (y_conx f) [])).
  { intros y l Hy. split; [apply (V2 y); auto|]. intros c. split.
    - intros Hc. apply In_nth_error in Hc as (j & Hj). destruct (c_vrows _ _ W _ _ Hy) as (ts & T1 & T2).
      destruct (nth_error ts j) as [t|] eqn:Et.
      2:{ apply nth_error_None in Et. assert (j < length l) by (apply nth_error_Some; congruence). lia. }
      assert (I : in_variable f c y t) by (exists j; unfold get2, get; rewrite Hy, T1; auto).
      apply (c_same _ _ W) in I. destruct I as (i & I & _). unfold get2, get in I.
      destruct (nth_error (y_conx f) c) as [r|] eqn:Er'; [|discriminate]. cbn in I.
      rewrite (nth_error_nth _ _ _ Er'). eapply nth_error_In; eauto.
    - intros Hc. destruct (get_In_nth _ _ _ Hc) as (r & Er' & Ir). eapply V3; eauto. }
  pose proof (proj1 (Forall_forall _ _) (c_range _ _ W)) as Ru. cbn beta in Ru.
  assert (Us : forall c u, In u (nth c (y_conx f) []) -> In u (y_used f)).
  { intros c u Hu. destruct (in_dec Nat.eq_dec u (y_used f)) as [|N']; [auto|]. exfalso.
    destruct (HB _ _ Hu) as (_ & B). pose proof (V4 u B N') as X.
    assert (Hy : nth_error (y_vconx f) u = Some (nth u (y_vconx f) [])).
    { apply nth_error_nth'. rewrite (c_vconx _ _ W). auto. }
    destruct (Vw u _ Hy) as (_ & Z). apply Z in Hu. rewrite X in Hu. destruct Hu. }
  split; [exact N|]. exists M. split.
  { split; [exact Em|]. split; [exact Lc|]. split; [auto|]. split; [auto|]. split; [auto|]. split; [auto|].
    split; [apply (c_vconx _ _ W)|]. split; [apply (c_range _ _ W)|]. split; [exact Vw|]. split; [auto|]. split.
    - intros c u Hu. destruct (HB _ _ Hu) as (B1 & B2). rewrite HM by auto. rewrite (proj2 (mem_In _ _) Hu). reflexivity.
    - intros c u Hu. unfold used_cost. rewrite (proj2 (mem_In _ _) (Us c u Hu)). reflexivity. }
  - (* the call *)
    intros x Lx Sx iters flag alpha post pp ext' E' HD.
    destruct (C47_ksat_call nv k sol ord ord2 ord3 draws metrics iters flag alpha (Fin theta) post pp)
      as (f' & ext & intr & o & Er & _ & Li & Le & Hi & Hhd & Lh & _ & Hfl); auto.
    assert (X : f' = f /\ map Fin ext' = map Fin ext).
    { unfold py_ksat_run in Er. rewrite Ef in Er. cbn [bind] in Er. rewrite Em in Er. cbn [bind] in Er.
      rewrite E' in Er. cbn [bind] in Er. clear - Er.
      destruct (py_ksat_finish f ord2 ord3 (Fin theta) pp post (map Fin metrics) (map Fin ext')); [|discriminate].
      cbn [bind] in Er. split; congruence. }
    destruct X as (-> & X). apply fins_inj in X. subst ext'.
    assert (Dec : forall w, In w (y_used f) -> py_decide (Fin theta) (Fin (nth w intr 0%Qc)) = bit (nth w x false)).
    { intros w Hw. pose proof (Ru w Hw) as Bw. rewrite Hi, (proj2 (mem_In _ _) Hw) by auto. specialize (HD w Hw).
      destruct (nth w x false) eqn:Ex; unfold py_decide, nleb; cbn [nleb].
      - destruct (nlt (Fin theta) (Fin (nth w ext 0 + nth w metrics 0)%Qc)) eqn:B; cbn [negb].
        + exfalso. cbn in B. apply qltb_true in B. qlra.
        + cbn. reflexivity.
      - destruct (nlt (Fin theta) (Fin (nth w ext 0 + nth w metrics 0)%Qc)) eqn:B; cbn [negb].
        + cbn in B |- *. rewrite B. reflexivity.
        + exfalso. cbn in B. apply qltb_false in B. qlra. }
    assert (Hd' : forall w, In w (y_used f) ->
       nth_error (map (py_decide (Fin theta)) (map Fin intr)) w = Some (bit (nth w x false))).
    { intros w Hw. rewrite <- (Dec w Hw). apply map_nth_error, map_nth_error, nth_error_nth'. rewrite Li. auto. }
    assert (AllT : forall c, c < y_nc f -> clause_true f (map (py_decide (Fin theta)) (map Fin intr)) c).
    { intros c Hc. assert (Hcx : nth_error (y_conx f) c = Some (nth c (y_conx f) [])) by (apply nth_error_nth'; lia).
      assert (Hts : nth_error (y_types f) c = Some (nth c (y_types f) [])) by (apply nth_error_nth'; lia).
      destruct (Sx c _ _ Hcx Hts) as (j & s & b & J1 & J2 & ->).
      unfold signs in J1. rewrite nth_error_map in J1. destruct (nth_error (nth c (y_types f) []) j) as [t|] eqn:Et; [|discriminate].
      rewrite nth_error_map in J2. destruct (nth_error (nth c (y_conx f) []) j) as [v|] eqn:Ev; [|discriminate].
      cbn in J1, J2. assert (Iv : In v (nth c (y_conx f) [])) by (eapply nth_error_In; eauto).
      exists v, t. split.
      - exists j. unfold get2, get. rewrite Hcx, Hts. auto.
      - exists (bit (nth v x false)). split; [apply Hd'; eauto|].
        destruct (Wf c _ _ Hcx Hts) as (_ & _ & _ & _ & Pm). rewrite Forall_forall in Pm.
        destruct (Pm t (nth_error_In _ _ Et)) as [-> | ->]; cbn in J1.
        + left. split; [auto|]. assert (nth v x false = true) as -> by congruence. discriminate.
        + right. split; [auto|]. assert (nth v x false = false) as -> by congruence. reflexivity. }
    exists o. split; [exact Er|]. rewrite (Hhd (or_intror AllT)) in *. split; [exact Hd'|]. apply Hfl. exact AllT.
Qed.
Lemma call_facts nv k sol ord ord2 ord3 draws (metrics : list Qc) theta f x :
    2 <= k -> length sol = nv -> Forall (valid_draw nv k) draws -> length metrics = nv ->
    (forall l, Permutation l (ord l)) -> (forall l, Permutation l (ord2 l)) -> (forall l, Permutation l (ord3 l)) ->
    create_formula nv k sol ord draws = Some f ->
    length x = nv -> satisfies (y_conx f) (y_types f) x ->
    (forall y, length y = nv -> satisfies (y_conx f) (y_types f) y ->
       (exists v, In v (y_used f) /\ nth v y false <> nth v x false) ->
       (cost_on (y_used f) metrics x + theta < cost_on (y_used f) metrics y)%Qc /\
       (cost_on (y_used f) metrics x - theta < cost_on (y_used f) metrics y)%Qc) ->
  exists M : list (list Qc),
    (* shape of the formula *)
    (initial_messages nv f (map Fin metrics) = Some (inj M) /\ length (y_conx f) = y_nc f /\ shape (y_nc f) k (y_conx f) /\ shape (y_nc f) k (y_types f) /\ shape (y_nc f) nv M /\
     (forall c cx tys, nth_error (y_conx f) c = Some cx -> nth_error (y_types f) c = Some tys -> clause_wf nv k cx tys) /\
     length (y_vconx f) = nv /\ Forall (fun x => x < nv) (y_used f) /\
     (forall x l, nth_error (y_vconx f) x = Some l -> NoDup l /\ forall c, In c l <-> In x (nth c (y_conx f) [])) /\
     (forall j, j < nv -> ~ In j (y_used f) -> nth j (y_vconx f) [] = []) /\
     (forall c u, In u (nth c (y_conx f) []) -> qat M c u = nth u metrics 0%Qc) /\
     (forall c u, In u (nth c (y_conx f) []) -> used_cost f metrics u = nth u metrics 0%Qc)) /\
    (* exact messages decide for [x] *)
    (forall idx w d, Permutation idx (seq 0 (y_nc f)) -> In w (y_used f) ->
       gmsg (seq 0 nv) (clause_at (y_conx f) (y_types f)) idx (used_cost f metrics) w d ->
       if nth w x false then (d + nth w metrics 0 < theta)%Qc else (theta < d + nth w metrics 0)%Qc) /\
    (* a call whose output decides for [x] reports [x] *)
    (forall iters flag alpha post_process pp ext,
       wrapper_ksat iters nv (y_nc f) (length (y_used f)) (Fin alpha) flag (y_used f) (concat (y_vconx f))
         (map (@length nat) (y_vconx f)) (concat (y_conx f)) (concat (y_types f)) (map Fin metrics) (concat (inj M)) k
         = Some (map Fin ext) ->
       (forall w, In w (y_used f) ->
          if nth w x false then (nth w ext 0 + nth w metrics 0 < theta)%Qc else (theta < nth w ext 0 + nth w metrics 0)%Qc) ->
       exists o,
         py_ksat_run nv k sol ord draws (map Fin metrics) iters flag (Fin alpha) (Fin theta) post_process pp ord2 ord3
           = Some (f, map Fin ext, o) /\
         (forall v, In v (y_used f) -> nth_error (k_hd o) v = Some (bit (nth v x false))) /\
         k_flag o = true).
Proof.
  intros Hk Ls Hd Lm P1 P2 P3 Ef Lx Sx Opt.
  destruct (call_basics nv k sol ord ord2 ord3 draws metrics theta f) as (N & M & Sh & Call); auto.
  exists M. split; [exact Sh|]. split; [|apply Call; auto].
  destruct Sh as (_ & Lc & _ & (Lt & _) & _ & Wf & _ & Fu & _).
  assert (HB : forall c u, In u (nth c (y_conx f) []) -> c < y_nc f /\ u < nv).
  { intros c u Hu'. destruct (get_In_nth _ _ _ Hu') as (r & Er' & Ir).
    assert (Lc' : c < y_nc f) by (rewrite <- Lc; apply nth_error_Some; congruence).
    split; [auto|]. destruct (Wf c r (nth c (y_types f) [])) as (_ & _ & _ & B & _); [auto|apply nth_error_nth'; lia|].
    rewrite Forall_forall in B. auto. }
  pose proof (proj1 (Forall_forall _ _) Fu) as Ru. cbn beta in Ru.
  (* decisions of the exact messages *)
    intros idx w d P Hw G. set (mu := used_cost f metrics) in *.
    assert (Cost : forall a,
       cost_on (y_used f) metrics (map a (seq 0 nv)) = (fsum (seq 0 nv) (notw w) mu a + if a w then nth w metrics 0 else 0)%Qc).
    { intros a. unfold cost_on. pose proof (Ru w Hw) as Bw.
      transitivity (qsum (map (fun v => if a v then mu v else 0%Qc) (seq 0 nv))).
      - rewrite (qsum_outside _ nv (y_used f)); auto.
        + f_equal. apply map_ext_in. intros v Hv. unfold mu, used_cost. rewrite (proj2 (mem_In _ _) Hv).
          rewrite (nth_indep _ false (a 0)) by (rewrite map_length, seq_length; auto).
          rewrite map_nth, seq_nth by auto. reflexivity.
        + intros c Hc Nc. unfold mu, used_cost. rewrite (proj2 (mem_not_In _ _) Nc). destruct (a c); reflexivity.
      - change (qsum (map (fun v => if a v then mu v else 0%Qc) (seq 0 nv))) with (fsum (seq 0 nv) (fun _ => true) mu a).
        rewrite (fsum_point _ (seq_NoDup nv 0) (fun _ => true) mu a w); [|apply in_seq; lia|reflexivity].
        unfold mu at 1, used_cost. rewrite (proj2 (mem_In _ _) Hw). unfold notw. cbn [andb]. destruct (a w); qlra. }
    pose proof (as_map false x nv Lx) as Xa.
    assert (SS : forall a, satisfies (y_conx f) (y_types f) (map a (seq 0 nv)) <-> sat (clause_at (y_conx f) (y_types f)) idx a).
    { intros a. apply satisfies_sat; [congruence|rewrite Lc; auto|intros c u Hc; apply HB in Hc; tauto]. }
    pose proof (Ru w Hw) as Bw. destruct G as (q1 & q0 & B1 & B0 & ->).
    pose proof Sx as Sx'. rewrite Xa in Sx'. apply SS in Sx'.
    assert (Alt : forall a, sat (clause_at (y_conx f) (y_types f)) idx a -> a w <> nth w x false ->
       let c := (fsum (seq 0 nv) (notw w) mu a + if a w then nth w metrics 0 else 0)%Qc in
       (cost_on (y_used f) metrics x + theta < c)%Qc /\ (cost_on (y_used f) metrics x - theta < c)%Qc).
    { intros a Sa Na c. unfold c. rewrite <- Cost by auto. apply Opt.
      - rewrite map_length, seq_length. auto.
      - apply SS. auto.
      - exists w. split; [auto|]. rewrite (nth_indep _ false (a 0)) by (rewrite map_length, seq_length; auto).
        rewrite map_nth, seq_nth by auto. exact Na. }
    pose proof (Cost (fun v => nth v x false)) as Cx. rewrite <- Xa in Cx. cbn beta in Cx.
    destruct B1 as ((a1 & A1 & A2 & A3) & A4). destruct B0 as ((a0 & C1 & C2 & C3) & C4).
    destruct (nth w x false) eqn:Ex.
    + specialize (A4 _ Sx' Ex). destruct (Alt a0 C1) as (L1 & L2); [congruence|]. rewrite C2 in L1, L2. qlra.
    + specialize (C4 _ Sx' Ex). destruct (Alt a1 A1) as (L1 & L2); [congruence|]. rewrite A2 in L1, L2. qlra.
Qed.
