(** * Property C77: settled K-SAT messages give locally optimal satisfying assignments. *)
From Coq Require Import Permutation.
From Verif Require Import Num NumFacts Arr ArrFacts Spec SpecRun SpecForest SpecCover SpecSettled MinSum MinSumFacts P_Settled.
From Verif Require Import P_Ksat P_Tsp_Sched P_Tsp_Order P_Tsp_Assign.
From Verif Require Import M_Tsp_Run M_Ksat_Py P_Ksat_Py P_Ksat_Gen P_PyRef_Ksat P_Forest P_Ksat_Tree P_Ksat_Limit P_Ksat_Opt.
From Verif Require Import M_InOut M_Runs P_Runs P_Schedule T_Schedule T_Ksat_Py T_PyRef_Run T_Ksat_Tree.
Local Open Scope nat_scope.

Lemma occurs_In v l : occurs v l = true <-> In v l.
Proof. apply mem_In. Qed.

(** The schedule determines the messages on the edges. *)
Lemma clause_messages_unique conx types metrics flag alpha V D M V' D' M' : length types = length conx ->
  clause_messages conx types metrics flag alpha V D M -> clause_messages conx types metrics flag alpha V' D' M' ->
  forall t c v, In v (nth c conx []) -> V t c v = V' t c v /\ D t c v = D' t c v /\ M t c v = M' t c v.
Proof.
  intros Lt H H'.
  assert (edge : forall c v, In v (nth c conx []) -> exists cx tys j, nth_error conx c = Some cx /\ nth_error types c = Some tys /\
    nth_error cx j = Some v /\ forall u, In u cx -> In u (nth c conx [])).
  { intros c v I. destruct (get_In_nth _ _ _ I) as (cx & Ec & Iv). destruct (In_nth_error _ _ Iv) as (j & Ej).
    assert (c < length types) by (rewrite Lt; apply nth_error_Some; congruence).
    exists cx, (nth c types []), j. split; auto. split; [now apply nth_error_nth'|]. split; auto. intros u Iu. now rewrite (nth_error_nth _ _ _ Ec). }
  assert (step : forall t, (forall c v, In v (nth c conx []) -> V t c v = V' t c v) -> forall c v, In v (nth c conx []) -> D t c v = D' t c v).
  { intros t E c v I. destruct (edge c v I) as (cx & tys & j & Ec & Et & Ej & Hu).
    destruct (H c cx tys Ec Et j v Ej) as (_ & A). destruct (H' c cx tys Ec Et j v Ej) as (_ & A').
    destruct (A t) as (B & _). destruct (A' t) as (B' & _).
    assert (map (V t c) cx = map (V' t c) cx) as Em by (apply map_ext_in; intros u Iu; apply E; auto). rewrite Em in B.
    pose proof (minsum_message_unique _ _ _ _ _ B B') as Q. now injection Q. }
  assert (filt : forall t, (forall i c v, i <= t -> In v (nth c conx []) -> D i c v = D' i c v) -> forall c v, In v (nth c conx []) -> M t c v = M' t c v).
  { intros t E c v I. destruct (edge c v I) as (cx & tys & j & Ec & Et & Ej & Hu).
    destruct (H c cx tys Ec Et j v Ej) as (_ & A). destruct (H' c cx tys Ec Et j v Ej) as (_ & A').
    destruct (A t) as (_ & B & _). destruct (A' t) as (_ & B' & _). rewrite B, B'. unfold filtered.
    destruct (flag && negb (Qc_eq_bool alpha 0)); [|apply E; auto]. f_equal. apply map_ext_in. intros i Hi. apply in_seq in Hi. rewrite E; auto. lia. }
  assert (all : forall t, (forall i c v, i <= t -> In v (nth c conx []) -> V i c v = V' i c v) /\ (forall i c v, i <= t -> In v (nth c conx []) -> D i c v = D' i c v)).
  { induction t as [|t (IV & ID)].
    - assert (Z : forall c v, In v (nth c conx []) -> V 0 c v = V' 0 c v).
      { intros c v I. destruct (edge c v I) as (cx & tys & j & Ec & Et & Ej & _).
        destruct (H c cx tys Ec Et j v Ej) as (-> & _). destruct (H' c cx tys Ec Et j v Ej) as (-> & _). reflexivity. }
      split; intros i c v Hi I; assert (i = 0) by lia; subst i; auto.
    - pose proof (filt t ID) as Q.
      assert (Z : forall c v, In v (nth c conx []) -> V (S t) c v = V' (S t) c v).
      { intros c v I. destruct (edge c v I) as (cx & tys & j & Ec & Et & Ej & _).
        destruct (H c cx tys Ec Et j v Ej) as (_ & A). destruct (H' c cx tys Ec Et j v Ej) as (_ & A').
        destruct (A t) as (_ & _ & B). destruct (A' t) as (_ & _ & B'). rewrite Nat.add_1_r in B, B'. rewrite B, B'. f_equal.
        apply sum_ext. intros c' I'. apply filter_In in I' as (_ & I'). apply Q. now apply occurs_In. }
      split; intros i c v Hi I; (destruct (Nat.eq_dec i (S t)) as [->|N]; [|first [apply IV|apply ID]; auto; lia]); auto. }
  intros t c v I. destruct (all t) as (IV & ID). split; [auto|split; [auto|]]. apply filt; auto.
Qed.

(** The call computes these messages. *)
Lemma run_messages iters nv nc k used (metrics : list Qc) conx types (V0 : list (list Qc)) varconx flag alpha :
  2 <= k -> length metrics = nv -> shape nc k conx -> shape nc k types -> shape nc nv V0 ->
  (forall c cx tys, nth_error conx c = Some cx -> nth_error types c = Some tys -> clause_wf nv k cx tys) ->
  length varconx = nv -> Forall (fun x => x < nv) used ->
  (forall x l, nth_error varconx x = Some l -> NoDup l /\ forall c, In c l <-> In x (nth c conx [])) ->
  (forall j, j < nv -> ~ In j used -> nth j varconx [] = []) ->
  (forall c u, In u (nth c conx []) -> qat V0 c u = nth u metrics 0%Qc) ->
  exists ext V D M,
    wrapper_ksat iters nv nc (length used) (Fin alpha) flag used (concat varconx)
      (map (@length nat) varconx) (concat conx) (concat types) (map Fin metrics) (concat (inj V0)) k
      = Some (map Fin ext) /\ length ext = nv /\ clause_messages conx types metrics flag alpha V D M /\
    forall w, w < nv -> 0 < iters -> nth w ext 0%Qc = qsum (map (fun c => M (iters - 1) c w) (filter (fun c => occurs w (nth c conx [])) (seq 0 nc))).
Proof.
  intros Hk Lm Sc St SV Wf Lv Hu Hin Hun HM. destruct Sc as (Lc & Fc). destruct St as (Lt & Ft).
  assert (HB : forall c u, In u (nth c conx []) -> c < nc /\ u < nv).
  { intros c u Hu'. destruct (Nat.lt_ge_cases c nc) as [Lc'|G].
    - split; [auto|]. destruct (Wf c (nth c conx []) (nth c types [])) as (_ & _ & _ & B & _); try (apply nth_error_nth'; lia).
      rewrite Forall_forall in B. auto.
    - rewrite nth_overflow in Hu' by lia. destruct Hu'. }
  destruct (C49_ksat_run iters nv nc k used metrics conx types V0 varconx flag alpha)
    as (ext & V & D & M & E & Le & E0 & HT & HX); auto.
  { split; auto. } { split; auto. }
  { intros x l Hx. destruct (Hin x l Hx) as (A & B). split; [auto|]. apply Forall_forall. intros c Hc.
    apply B in Hc. apply HB in Hc. tauto. }
  assert (Off : forall t c x, c < nc -> x < nv -> ~ In x (nth c conx []) -> qat (M t) c x = 0%Qc).
  { intros t c x Hc Hx N. destruct (HT t) as (_ & A & _). rewrite A by auto. apply filtered_none. intros i _. destruct (HT i) as (A' & _).
    destruct (A' c (nth c conx []) (nth c types [])) as (_ & B); try (apply nth_error_nth'; lia). auto. }
  exists ext, (fun t => qat (V t)), (fun t => qat (D t)), (fun t => qat (M t)). split; [exact E|]. split; [exact Le|]. split.
  - intros c cx tys Ec Et j v Ej. assert (Ic : In v (nth c conx [])) by (rewrite (nth_error_nth _ _ _ Ec); eapply nth_error_In; eauto).
    destruct (HB c v Ic) as (Hc & Hv). split; [rewrite E0; auto|]. intro t. destruct (HT t) as (A & B & C & _).
    destruct (A c cx tys Ec Et) as (A1 & _). split; [apply A1; auto|]. split; [apply B; auto|].
    assert (Hx : nth_error varconx v = Some (nth v varconx [])) by (apply nth_error_nth'; lia).
    destruct (Hin v _ Hx) as (N1 & N2). rewrite (C v _ c Hx) by (apply N2; auto). f_equal.
    apply sum_perm, Permutation_map, NoDup_Permutation; [apply NoDup_filter; auto|apply NoDup_filter, NoDup_filter, seq_NoDup|].
    intros x. unfold others. rewrite !filter_In, occurs_In, in_seq. split.
    + intros (H1 & H2). apply N2 in H1. split; [split; [|auto]|auto]. destruct (HB x v H1). lia.
    + intros ((_ & H2) & H1). split; auto. now apply N2.
  - intros w Hw Hi. rewrite HX by auto. destruct (Nat.eqb_spec iters 0); [lia|]. symmetry. rewrite sum_filter. apply sum_ext. intros c Hc.
    apply in_seq in Hc. destruct (occurs w (nth c conx [])) eqn:Eo; auto. symmetry. apply Off; try lia.
    intro I. apply occurs_In in I. congruence.
Qed.

Lemma run_formula nv k sol ord draws metrics iters flag alpha theta post pp ord2 ord3 f ext o :
  py_ksat_run nv k sol ord draws metrics iters flag alpha theta post pp ord2 ord3 = Some (f, ext, o) ->
  create_formula nv k sol ord draws = Some f.
Proof.
  intro Er. unfold py_ksat_run in Er. destruct (create_formula nv k sol ord draws) as [f'|]; [|discriminate]. cbn [bind] in Er.
  destruct (initial_messages nv f' metrics); [|discriminate]. cbn [bind] in Er.
  destruct (wrapper_ksat _ _ _ _ _ _ _ _ _ _ _ _ _ _); [|discriminate]. cbn [bind] in Er.
  destruct (py_ksat_finish _ _ _ _ _ _ _ _); [|discriminate]. cbn [bind] in Er. congruence.
Qed.
Lemma formula_used nv k sol ord draws f : 1 <= k -> length sol = nv -> Forall (valid_draw nv k) draws ->
  (forall l, Permutation l (ord l)) -> create_formula nv k sol ord draws = Some f ->
  NoDup (y_used f) /\ forall c v, In v (nth c (y_conx f) []) -> In v (y_used f).
Proof.
  intros Hk Ls Hd P Ef. destruct (create_formula_ok nv k sol ord draws) as (f' & Ef' & W & Q & N & _); auto.
  assert (f' = f) by congruence. subst f'. split; [exact N|]. intros c v I. destruct (get_In_nth _ _ _ I) as (r & Er & Ir).
  destruct (In_nth_error _ _ Ir) as (j & Ej). assert (Hc : c < length (y_types f)).
  { rewrite (c_types _ _ W), <- (c_conx _ _ W). apply nth_error_Some. congruence. }
  destruct (c_rows _ _ W c r Er) as (ts & T1 & T2).
  destruct (nth_error ts j) as [t|] eqn:Et; [|apply nth_error_None in Et; assert (j < length r) by (apply nth_error_Some; congruence); lia].
  apply (c_used _ _ W c v t). exists j. unfold get2, get. rewrite Er, T1. auto.
Qed.

(** Constraints without a cycle are loose, with any root. *)
Lemma forest_owner cx idx : forest cx idx -> NoDup idx -> forall r, exists owner : nat -> nat,
  (forall v c c', In c idx -> In c' idx -> In v (cx c) -> In v (cx c') -> c <> c' -> owner c = v \/ owner c' = v) /\
  (forall c, In c idx -> In r (cx c) -> owner c = r).
Proof.
  induction 1 as [|i v idx Iv Hn _ IH]; intros N r; [exists (fun _ => r); split; [intros ? ? ? []|auto]|].
  inversion N as [|? ? Ni N']; subst. specialize (IH N').
  destruct (in_dec Nat.eq_dec r (cx i)) as [Ir|Ir]; [destruct (Nat.eq_dec r v) as [->|Nr]|].
  - destruct (IH v) as (ow & O1 & O2). exists (fun c => if c =? i then v else ow c). split.
    + intros u c c' [<-|I] [<-|I'] U U' D; try congruence; rewrite ?Nat.eqb_refl;
        repeat match goal with |- context [?a =? i] => destruct (Nat.eqb_spec a i); [subst; contradiction|] end; auto.
      * destruct (Nat.eq_dec u v) as [->|Nu]; auto. exfalso. eapply Hn; eauto.
      * destruct (Nat.eq_dec u v) as [->|Nu]; auto. exfalso. eapply Hn; eauto.
    + intros c [<-|I] U; [now rewrite Nat.eqb_refl|]. destruct (Nat.eqb_spec c i); auto.
  - destruct (IH v) as (ow & O1 & O2). exists (fun c => if c =? i then r else ow c). split.
    + intros u c c' [<-|I] [<-|I'] U U' D; try congruence; rewrite ?Nat.eqb_refl;
        repeat match goal with |- context [?a =? i] => destruct (Nat.eqb_spec a i); [subst; contradiction|] end; auto.
      * destruct (Nat.eq_dec u v) as [->|Nu]; auto. exfalso. eapply Hn; eauto.
      * destruct (Nat.eq_dec u v) as [->|Nu]; auto. exfalso. eapply Hn; eauto.
    + intros c [<-|I] U; [now rewrite Nat.eqb_refl|]. exfalso. exact (Hn r c Ir Nr I U).
  - destruct (IH r) as (ow & O1 & O2). exists (fun c => if c =? i then v else ow c). split.
    + intros u c c' [<-|I] [<-|I'] U U' D; try congruence; rewrite ?Nat.eqb_refl;
        repeat match goal with |- context [?a =? i] => destruct (Nat.eqb_spec a i); [subst; contradiction|] end; auto.
      * destruct (Nat.eq_dec u v) as [->|Nu]; auto. exfalso. eapply Hn; eauto.
      * destruct (Nat.eq_dec u v) as [->|Nu]; auto. exfalso. eapply Hn; eauto.
    + intros c [<-|I] U; [contradiction|]. destruct (Nat.eqb_spec c i); [congruence|auto].
Qed.
Lemma tree_loose conx dif root : tree_like conx -> loose_at (seq 0 (length conx)) (fun c => nth c conx []) dif root.
Proof.
  intros (idx & P & F). destruct (forest_owner _ _ F) with (r := root) as (ow & O1 & O2).
  { eapply Permutation_NoDup; [apply Permutation_sym, P|apply seq_NoDup]. }
  assert (I : forall c, In c (seq 0 (length conx)) -> In c idx) by (intros c H; eapply Permutation_in; [apply Permutation_sym, P|exact H]).
  exists ow. split; [intros v c c' _ H1 H2; apply O1; auto|intros c H; apply O2; auto].
Qed.

(** C77.  Let a complete call end with messages such that another iteration would not weaken any of
    them by more than [e] (see [supports]; in particular if it would change them by at most [e]), and
    let every variable be decided by a margin [g] of at least [e] and the threshold.  Then the
    decisions satisfy the formula, and a satisfying assignment [y] is cheaper by at most [e] for every
    further clause of a variable that differs, provided it differs loosely (see [loose]).  Clauses
    whose messages to the variables that differ are 0 need not be counted.  If the difference has a
    root variable, [y] is dearer by the root's margin. *)
Theorem C77_settled :
  forall (nv k : nat) (sol : list bool) (ord ord2 ord3 : list nat -> list nat) (draws : list draw)
         (metrics : list Qc) (iters : nat) (flag : bool) (alpha theta : Qc) (post_process : bool) (pp : nat)
         (f : formula) (ext : list Qc) (o : ks_obj) (V D M : nat -> nat -> nat -> Qc) (e g : Qc),
    2 <= k -> length sol = nv -> Forall (valid_draw nv k) draws -> length metrics = nv ->
    (forall l, Permutation l (ord l)) -> (forall l, Permutation l (ord2 l)) -> (forall l, Permutation l (ord3 l)) ->
    py_ksat_run nv k sol ord draws (map Fin metrics) iters flag (Fin alpha) (Fin theta) post_process pp ord2 ord3
      = Some (f, map Fin ext, o) ->
    0 < iters -> clause_messages (y_conx f) (y_types f) metrics flag alpha V D M ->
    (0 <= e)%Qc -> (e <= g)%Qc -> close g theta 0 ->
    (forall c v, In v (nth c (y_conx f) []) ->
       supports e (nth v ext 0 + nth v metrics 0)%Qc (D iters c v) (M (iters - 1) c v)) ->
    (forall v, In v (y_used f) -> (nth v ext 0 + nth v metrics 0 < - g \/ g < nth v ext 0 + nth v metrics 0)%Qc) ->
    k_flag o = true /\
    exists x, length x = nv /\ satisfies (y_conx f) (y_types f) x /\
      (forall v, In v (y_used f) -> nth_error (k_hd o) v = Some (bit (nth v x false))) /\
      forall (y : list bool) (active : nat -> bool),
        let scope c := nth c (y_conx f) [] in
        let live := filter active (seq 0 (length (y_conx f))) in
        let slack := qsum (map (fun v => qn (pred (occurrences live scope v)) * e)%Qc (filter (differ x y) (y_used f))) in
        length y = nv -> satisfies (y_conx f) (y_types f) y ->
        (forall c v, active c = false -> In v (scope c) -> differ x y v = true -> M (iters - 1) c v = 0%Qc) ->
        (loose live scope (fun v => differ x y v = true) ->
           (cost_on (y_used f) metrics x <= cost_on (y_used f) metrics y + slack)%Qc) /\
        (forall root, In root (y_used f) -> differ x y root = true ->
           loose_at live scope (fun v => differ x y v = true) root ->
           (cost_on (y_used f) metrics x + magnitude (nth root ext 0 + nth root metrics 0)
              <= cost_on (y_used f) metrics y + slack + e)%Qc).
Proof.
  intros nv k sol ord ord2 ord3 draws metrics iters flag alpha theta post pp f ext o V D M e g
    Hk Ls Hd Lm P1 P2 P3 Er Hi HM He Heg Hth Hset Hdec.
  assert (Ef : create_formula nv k sol ord draws = Some f) by (eapply run_formula; eauto).
  destruct (call_basics nv k sol ord ord2 ord3 draws metrics theta f) as (Nu & M0 & Sh & Call); auto.
  destruct Sh as (Em & Lc & Sc & St & SM & Wf & Lv & Ru & Vw & V4 & HM0 & Hmu).
  pose proof (proj1 (Forall_forall _ _) Ru) as Ru'. cbn beta in Ru'.
  destruct (run_messages iters nv (y_nc f) k (y_used f) metrics (y_conx f) (y_types f) M0 (y_vconx f) flag alpha)
    as (ext' & V' & D' & M' & Ew & Le & HM' & HX); auto.
  assert (ext' = ext).
  { unfold py_ksat_run in Er. rewrite Ef in Er. cbn [bind] in Er. rewrite Em in Er. cbn [bind] in Er. rewrite Ew in Er. cbn [bind] in Er.
    destruct (py_ksat_finish _ _ _ _ _ _ _ _); [|discriminate]. cbn [bind] in Er. apply fins_inj. congruence. }
  subst ext'. pose proof (proj1 St) as Lt. pose proof (proj1 Sc) as Lc'.
  assert (Same : forall t c v, In v (nth c (y_conx f) []) -> V t c v = V' t c v /\ D t c v = D' t c v /\ M t c v = M' t c v).
  { apply (clause_messages_unique (y_conx f) (y_types f) metrics flag alpha); auto. congruence. }
  set (scope := fun c => nth c (y_conx f) []).
  assert (HB : forall c u, In u (scope c) -> c < y_nc f /\ u < nv /\ In u (y_used f)).
  { intros c u I. destruct (get_In_nth _ _ _ I) as (r & Er' & Ir).
    assert (Lc1 : c < y_nc f) by (rewrite <- Lc; apply nth_error_Some; congruence).
    assert (Lu : u < nv).
    { destruct (Wf c r (nth c (y_types f) [])) as (_ & _ & _ & B & _); [auto|apply nth_error_nth'; lia|]. rewrite Forall_forall in B. auto. }
    repeat split; auto. destruct (in_dec Nat.eq_dec u (y_used f)) as [|N]; auto. exfalso. pose proof (V4 u Lu N) as Z.
    assert (Hy : nth_error (y_vconx f) u = Some (nth u (y_vconx f) [])) by (apply nth_error_nth'; lia).
    destruct (Vw u _ Hy) as (_ & W). apply W in I. rewrite Z in I. destruct I. }
  set (b := fun v => (nth v ext 0 + nth v metrics 0)%Qc).
  set (allowed := fun c => clause_ok (signs (nth c (y_types f) []))).
  set (cost := fun v => nth v metrics 0%Qc).
  set (X := fun c v => M (iters - 1) c v).
  assert (Einc : forall v c, inc Nat.eq_dec scope v c = occurs v (scope c)).
  { intros v c. apply Bool.eq_iff_eq_true. rewrite inc_true, occurs_In. reflexivity. }
  assert (A1 : forall c, In c (seq 0 (y_nc f)) -> NoDup (scope c) /\ incl (scope c) (y_used f) /\ scope c <> []).
  { intros c Ic. apply in_seq in Ic. destruct (Wf c (scope c) (nth c (y_types f) [])) as (W1 & W2 & W3 & W4 & _); try (apply nth_error_nth'; lia).
    repeat split; auto; [intros u Iu; now apply HB in Iu|]. intro Z. rewrite Z in W1. cbn in W1. lia. }
  assert (A2 : forall v, In v (y_used f) -> b v = (cost v + qsum (map (fun c => X c v) (filter (inc Nat.eq_dec scope v) (seq 0 (y_nc f)))))%Qc).
  { intros v Iv. unfold b, cost. rewrite HX by auto. rewrite (Qcplus_comm (qsum _)). f_equal. rewrite (filter_ext _ _ (Einc v)). apply sum_ext.
    intros c Ic. apply filter_In in Ic as (_ & Ic). apply occurs_In in Ic. symmetry. apply Same. exact Ic. }
  assert (A3 : forall c v, In c (seq 0 (y_nc f)) -> In v (scope c) -> V iters c v = (b v - X c v)%Qc).
  { intros c v Ic Iv. pose proof Ic as Ic'. apply in_seq in Ic'. destruct (In_nth_error _ _ Iv) as (j & Ej).
    destruct (HM c (scope c) (nth c (y_types f) [])) with (j := j) (v := v) as (_ & Q); auto; try (apply nth_error_nth'; lia).
    destruct (Q (iters - 1)) as (_ & _ & R). replace (iters - 1 + 1) with iters in R by lia.
    rewrite R, A2 by now apply HB in Iv. unfold cost.
    rewrite (sum_split_one (f := fun c0 => X c0 v) c (filter (inc Nat.eq_dec scope v) (seq 0 (y_nc f)))).
    - unfold X. rewrite Lc. rewrite (filter_swap_others c). rewrite (filter_ext _ _ (Einc v)).
      match goal with |- (_ + ?p = _ + (_ + ?q) - _)%Qc => change p with q end. ring.
    - apply NoDup_filter, seq_NoDup.
    - apply filter_In. split; auto. now apply inc_true. }
  assert (A4 : forall c j v, In c (seq 0 (y_nc f)) -> nth_error (scope c) j = Some v ->
     minsum_message (allowed c) (map (V iters c) (scope c)) j (Fin (D iters c v))).
  { intros c j v Ic Ej. apply in_seq in Ic. 
    destruct (HM c (scope c) (nth c (y_types f) [])) with (j := j) (v := v) as (_ & Q); auto; try (apply nth_error_nth'; lia). apply Q. }
  assert (A5 : forall c v, In c (seq 0 (y_nc f)) -> In v (scope c) -> supports e (b v) (V iters c v + D iters c v) (b v)).
  { intros c v Ic Iv. rewrite A3 by auto. pose proof (Hset c v Iv) as Q. unfold supports in *. fold (b v) (X c v) in Q. destruct (qltb (b v) 0); qlra. }
  assert (A7 : forall c v, In c (seq 0 (y_nc f)) -> In v (scope c) -> supports 0 (b v) (b v) (V iters c v + X c v)).
  { intros c v Ic Iv. rewrite A3 by auto. unfold supports. destruct (qltb (b v) 0); qlra. }
  assert (A6 : forall v, In v (y_used f) -> (b v < - e \/ e < b v)%Qc).
  { intros v Iv. unfold b. destruct (Hdec v Iv); [left|right]; qlra. }
  pose proof (settled_factor (y_used f) (seq 0 (y_nc f)) scope allowed b (fun c v => V iters c v) (fun c v => D iters c v) e
     A1 A4 A5 He A6) as Fac.
  set (x := map (dec b) (seq 0 nv)).
  assert (Ex : forall v, v < nv -> nth v x false = dec b v).
  { intros v Hv. unfold x. rewrite (nth_indep _ false (dec b 0)) by (rewrite map_length, seq_length; auto). rewrite map_nth, seq_nth; auto. }
  assert (Lx : length x = nv) by (unfold x; now rewrite map_length, seq_length).
  assert (Sx : satisfies (y_conx f) (y_types f) x).
  { intros c cx tys Ec Et. assert (Hc : c < y_nc f) by (rewrite <- Lc; apply nth_error_Some; congruence).
    destruct (Fac c) as (Al & _); [apply in_seq; lia|]. unfold allowed in Al. rewrite (nth_error_nth _ _ _ Et) in Al.
    assert (Es : scope c = cx) by (unfold scope; now rewrite (nth_error_nth _ _ _ Ec)).
    replace (map (fun v => nth v x false) cx) with (map (dec b) (scope c)); auto. rewrite <- Es. apply map_ext_in.
    intros v Iv. symmetry. apply Ex. now apply HB in Iv. }
  assert (Dx : forall w, In w (y_used f) ->
     if nth w x false then (nth w ext 0 + nth w metrics 0 < theta)%Qc else (theta < nth w ext 0 + nth w metrics 0)%Qc).
  { intros w Iw. rewrite Ex by auto. unfold dec, b. destruct Hth as (T1 & T2).
    destruct (qltb_spec (nth w ext 0 + nth w metrics 0)%Qc 0%Qc); destruct (Hdec w Iw); qlra. }
  destruct (Call x Lx Sx iters flag alpha post pp ext Ew Dx) as (o' & Er' & Hh & Hf). rewrite Er in Er'. assert (o' = o) by congruence. subst o'.
  split; [exact Hf|]. exists x. split; [exact Lx|]. split; [exact Sx|]. split; [exact Hh|].
  intros y active scope' live slack Ly Sy Hin. change scope' with scope in *. clear scope'.
  set (yy := fun v => nth v y false).
  assert (Hy : forall c, In c (seq 0 (y_nc f)) -> allowed c (map yy (scope c))).
  { intros c Ic. apply in_seq in Ic. apply (Sy c); apply nth_error_nth'; lia. }
  assert (Edif : forall v, v < nv -> dif b yy v = differ x y v).
  { intros v Hv. unfold dif, differ. rewrite Ex by auto. apply xorb_comm. }
  assert (Hact : forall c v, In c (seq 0 (y_nc f)) -> active c = false -> In v (scope c) -> dif b yy v = true -> X c v = 0%Qc).
  { intros c v Ic Ac Iv Dv. apply (Hin c v); auto. rewrite <- Edif; auto. now apply HB in Iv. }
  assert (Ecost : forall z, total (map cost (y_used f)) (map (fun v => nth v z false) (y_used f)) = cost_on (y_used f) metrics z).
  { intro z. rewrite total_sum. reflexivity. }
  assert (Ecx : total (map cost (y_used f)) (map (dec b) (y_used f)) = cost_on (y_used f) metrics x).
  { rewrite <- Ecost. f_equal. apply map_ext_in. intros v Iv. symmetry. apply Ex. auto. }
  assert (Eslack : qsum (map (P_Settled.slack Nat.eq_dec (seq 0 (y_nc f)) scope e 0 active) (filter (dif b yy) (y_used f))) = slack).
  { unfold slack. rewrite (filter_ext_in (dif b yy) (differ x y)) by (intros v Iv; apply Edif; auto). apply sum_ext. intros v _.
    unfold P_Settled.slack, deg, occurrences, live. rewrite Lc. rewrite (filter_ext _ _ (Einc v)). ring. }
  assert (Main : forall owner roots,
    (forall v c c', In v (y_used f) -> dif b yy v = true -> In c live -> In c' live -> In v (scope c) -> In v (scope c') -> c <> c' -> owner c = v \/ owner c' = v) ->
    (forall v c, In v (y_used f) -> roots v = true -> In c live -> In v (scope c) -> owner c = v) ->
    (cost_on (y_used f) metrics x + qsum (map (fun v => size b v - e)%Qc (filter (fun v => dif b yy v && roots v) (y_used f)))
       <= cost_on (y_used f) metrics y + slack)%Qc).
  { intros owner roots HO HR. pose proof (settled_exchange Nat.eq_dec (y_used f) (seq 0 (y_nc f)) scope allowed cost b
      (fun c v => V iters c v) (fun c v => D iters c v) X e 0%Qc Nu (seq_NoDup _ _) A1 A2 A4 A5 He A6 yy active owner
      (fun c v Ic _ => A7 c v Ic) (fun c Ic _ => Hy c Ic) Hact) as Q.
    unfold live in HO, HR. rewrite Lc in HO, HR. specialize (Q HO roots HR). rewrite Ecx, Eslack in Q. change (map yy (y_used f)) with (map (fun v => nth v y false) (y_used f)) in Q. rewrite Ecost in Q.
    eapply Qcle_trans; [|exact Q]. apply Qcplus_le_compat; [apply Qcle_refl|]. apply sum_le. intros v _. qlra. }
  split.
  - intros (owner & HO). specialize (Main owner (fun _ => false)).
    rewrite (filter_none (fun v => dif b yy v && false)) in Main by (intros; apply andb_false_r).
    unfold qsum at 1 in Main. cbn [map fold_right] in Main.
    assert (G : (cost_on (y_used f) metrics x + 0 <= cost_on (y_used f) metrics y + slack)%Qc); [|qlra].
    apply Main; [|discriminate]. intros v c c' Iv Dv. apply HO. rewrite <- Edif; auto.
  - intros root Ir Dr (owner & HO & HR). specialize (Main owner (Nat.eqb root)).
    rewrite (filter_one root) in Main; auto.
    + unfold qsum at 1 in Main. cbn [map fold_right] in Main. change (magnitude (nth root ext 0 + nth root metrics 0)%Qc) with (size b root).
      assert (G : (cost_on (y_used f) metrics x + (size b root - e + 0) <= cost_on (y_used f) metrics y + slack)%Qc); [|qlra].
      apply Main.
      * intros v c c' Iv Dv. apply HO. rewrite <- Edif; auto.
      * intros v c Iv Rv Ic Iv'. apply Nat.eqb_eq in Rv. subst v. apply HR; auto.
    + intros v Iv. split.
      * intro Q. apply andb_true_iff in Q as (_ & Q). now apply Nat.eqb_eq in Q.
      * intros <-. rewrite Nat.eqb_refl, Edif, Dr; auto.
Qed.

(** C77, formulas without cycles.  Settled messages give the cheapest satisfying assignment: another
    one that differs at a variable [root] is dearer by at least the root's margin, up to [e] for every
    further clause of the variables that differ. *)
Theorem C77_tree :
  forall (nv k : nat) (sol : list bool) (ord ord2 ord3 : list nat -> list nat) (draws : list draw)
         (metrics : list Qc) (iters : nat) (flag : bool) (alpha theta : Qc) (post_process : bool) (pp : nat)
         (f : formula) (ext : list Qc) (o : ks_obj) (V D M : nat -> nat -> nat -> Qc) (e g : Qc),
    2 <= k -> length sol = nv -> Forall (valid_draw nv k) draws -> length metrics = nv ->
    (forall l, Permutation l (ord l)) -> (forall l, Permutation l (ord2 l)) -> (forall l, Permutation l (ord3 l)) ->
    py_ksat_run nv k sol ord draws (map Fin metrics) iters flag (Fin alpha) (Fin theta) post_process pp ord2 ord3
      = Some (f, map Fin ext, o) ->
    0 < iters -> clause_messages (y_conx f) (y_types f) metrics flag alpha V D M ->
    (0 <= e)%Qc -> (e <= g)%Qc -> close g theta 0 ->
    (forall c v, In v (nth c (y_conx f) []) ->
       supports e (nth v ext 0 + nth v metrics 0)%Qc (D iters c v) (M (iters - 1) c v)) ->
    (forall v, In v (y_used f) -> (nth v ext 0 + nth v metrics 0 < - g \/ g < nth v ext 0 + nth v metrics 0)%Qc) ->
    tree_like (y_conx f) ->
    k_flag o = true /\
    exists x, length x = nv /\ satisfies (y_conx f) (y_types f) x /\
      (forall v, In v (y_used f) -> nth_error (k_hd o) v = Some (bit (nth v x false))) /\
      forall y root, length y = nv -> satisfies (y_conx f) (y_types f) y -> In root (y_used f) -> differ x y root = true ->
        (cost_on (y_used f) metrics x + magnitude (nth root ext 0 + nth root metrics 0)
         <= cost_on (y_used f) metrics y +
            qsum (map (fun v => qn (pred (occurrences (seq 0 (length (y_conx f))) (fun c => nth c (y_conx f) []) v)) * e)%Qc
                      (filter (differ x y) (y_used f))) + e)%Qc.
Proof.
  intros nv k sol ord ord2 ord3 draws metrics iters flag alpha theta post pp f ext o V D M e g
    Hk Ls Hd Lm P1 P2 P3 Er Hi HM He Heg Hth Hset Hdec Tr.
  destruct (C77_settled nv k sol ord ord2 ord3 draws metrics iters flag alpha theta post pp f ext o V D M e g)
    as (Hf & x & Lx & Sx & Hx & Opt); auto.
  split; [exact Hf|]. exists x. split; [exact Lx|]. split; [exact Sx|]. split; [exact Hx|].
  intros y root Ly Sy Ir Dr. destruct (Opt y (fun _ => true) Ly Sy) as (_ & Q); [discriminate|].
  specialize (Q root Ir Dr). rewrite (proj2 (filter_all (fun _ => true) (seq 0 (length (y_conx f))))) in Q by auto.
  apply Q. apply tree_loose. exact Tr.
Qed.

(** C77, one variable.  Whatever the formula, changing a single decision never gains more than [e] for
    every clause of the variable, and costs its margin. *)
Theorem C77_flip :
  forall (nv k : nat) (sol : list bool) (ord ord2 ord3 : list nat -> list nat) (draws : list draw)
         (metrics : list Qc) (iters : nat) (flag : bool) (alpha theta : Qc) (post_process : bool) (pp : nat)
         (f : formula) (ext : list Qc) (o : ks_obj) (V D M : nat -> nat -> nat -> Qc) (e g : Qc),
    2 <= k -> length sol = nv -> Forall (valid_draw nv k) draws -> length metrics = nv ->
    (forall l, Permutation l (ord l)) -> (forall l, Permutation l (ord2 l)) -> (forall l, Permutation l (ord3 l)) ->
    py_ksat_run nv k sol ord draws (map Fin metrics) iters flag (Fin alpha) (Fin theta) post_process pp ord2 ord3
      = Some (f, map Fin ext, o) ->
    0 < iters -> clause_messages (y_conx f) (y_types f) metrics flag alpha V D M ->
    (0 <= e)%Qc -> (e <= g)%Qc -> close g theta 0 ->
    (forall c v, In v (nth c (y_conx f) []) ->
       supports e (nth v ext 0 + nth v metrics 0)%Qc (D iters c v) (M (iters - 1) c v)) ->
    (forall v, In v (y_used f) -> (nth v ext 0 + nth v metrics 0 < - g \/ g < nth v ext 0 + nth v metrics 0)%Qc) ->
    exists x, length x = nv /\ satisfies (y_conx f) (y_types f) x /\
      (forall v, In v (y_used f) -> nth_error (k_hd o) v = Some (bit (nth v x false))) /\
      forall y v, length y = nv -> satisfies (y_conx f) (y_types f) y -> In v (y_used f) ->
        (forall u, In u (y_used f) -> (differ x y u = true <-> u = v)) ->
        (cost_on (y_used f) metrics x + magnitude (nth v ext 0 + nth v metrics 0)
         <= cost_on (y_used f) metrics y +
            qn (pred (occurrences (seq 0 (length (y_conx f))) (fun c => nth c (y_conx f) []) v)) * e + e)%Qc.
Proof.
  intros nv k sol ord ord2 ord3 draws metrics iters flag alpha theta post pp f ext o V D M e g
    Hk Ls Hd Lm P1 P2 P3 Er Hi HM He Heg Hth Hset Hdec.
  destruct (C77_settled nv k sol ord ord2 ord3 draws metrics iters flag alpha theta post pp f ext o V D M e g)
    as (Hf & x & Lx & Sx & Hx & Opt); auto.
  destruct (formula_used nv k sol ord draws f) as (Nu & U); auto; [lia|eapply run_formula; eauto|].
  exists x. split; [exact Lx|]. split; [exact Sx|]. split; [exact Hx|].
  intros y v Ly Sy Iv Hv. destruct (Opt y (fun _ => true) Ly Sy) as (_ & Q); [discriminate|].
  assert (Dv : differ x y v = true) by (apply Hv; auto).
  specialize (Q v Iv Dv). rewrite (proj2 (filter_all (fun _ => true) (seq 0 (length (y_conx f))))) in Q by auto.
  rewrite (filter_one v) in Q; auto.
  - unfold qsum in Q. cbn [map fold_right] in Q. rewrite Qcplus_0_r in Q. apply Q.
    exists (fun _ => v). split; auto. intros u c c' Du Ic Ic' I I' N. left. symmetry. apply Hv; auto. eapply U; eauto.
  - intros u Iu. rewrite Hv by auto. split; auto.
Qed.

(** ** Examples *)

(** Messages of a formula with two literals per clause, by computation. *)
Definition other_min (b : Qc) : Qc := if qltb b 0 then b else 0%Qc.
Definition pair_message (s s' : bool) (b : Qc) : Qc :=
  let f := if s' then b else 0%Qc in if s then (other_min b - f)%Qc else (f - other_min b)%Qc.
Lemma pair_first s s' a b : minsum_message (clause_ok [s; s']) [a; b] 0 (Fin (pair_message s s' b)).
Proof.
  assert (cl : forall x y : bool, (x = s \/ y = s') -> clause_ok [s; s'] [x; y]).
  { intros x y [->| ->]; [exists 0, s, s|exists 1, s', s']; auto. }
  assert (inv : forall l, length l = 2 -> clause_ok [s; s'] l -> exists x y, l = [x; y] /\ (x = s \/ y = s')).
  { intros [|x [|y [|z l]]] L; try discriminate. intros ([|[|j]] & u & w & E1 & E2 & ->); cbn in E1, E2; try (destruct j; discriminate); exists x, y; split; auto; [left|right]; congruence. }
  assert (val : forall x y, rest 0 [a; b] [x; y] = if y then b else 0%Qc).
  { intros [|] [|]; unfold rest; cbn; ring. }
  exists (Fin (if s then other_min b else if s' then b else 0)%Qc), (Fin (if s then if s' then b else 0 else other_min b)%Qc).
  split; [|split].
  - split.
    + destruct s; [|exists [true; s']; rewrite val; repeat split; auto]. unfold other_min.
      destruct (qltb b 0); [exists [true; true]|exists [true; false]]; rewrite val; repeat split; auto.
    + intros q (l & L & A & N & ->). destruct (inv l L A) as (x & y & -> & O). cbn in N. injection N as ->. rewrite val.
      destruct s; [unfold other_min; destruct (qltb_spec b 0), y; qlra|]. destruct O as [|]; [discriminate|subst; apply Qcle_refl].
  - split.
    + destruct s; [exists [false; s']; rewrite val; repeat split; auto|]. unfold other_min.
      destruct (qltb b 0); [exists [false; true]|exists [false; false]]; rewrite val; repeat split; auto.
    + intros q (l & L & A & N & ->). destruct (inv l L A) as (x & y & -> & O). cbn in N. injection N as ->. rewrite val.
      destruct s; [|unfold other_min; destruct (qltb_spec b 0), y; qlra]. destruct O as [|]; [discriminate|subst; apply Qcle_refl].
  - unfold pair_message. destruct s; reflexivity.
Qed.
Lemma pair_second s s' a b : minsum_message (clause_ok [s'; s]) [b; a] 1 (Fin (pair_message s s' b)).
Proof.
  assert (sw : forall x y : bool, clause_ok [s'; s] [y; x] <-> clause_ok [s; s'] [x; y]).
  { intros x y. split; intros ([|[|j]] & u & w & E1 & E2 & ->); cbn in E1, E2; try (destruct j; discriminate);
      [exists 1|exists 0|exists 1|exists 0]; cbn; eauto. }
  assert (val : forall x y, rest 1 [b; a] [y; x] = rest 0 [a; b] [x; y]) by (intros [|] [|]; unfold rest; cbn; ring).
  destruct (pair_first s s' a b) as (v1 & v0 & B1 & B0 & E). exists v1, v0.
  assert (tr : forall bb v, best (clause_ok [s; s']) [a; b] 0 bb v -> best (clause_ok [s'; s]) [b; a] 1 bb v).
  { intros bb [q| | |] B; auto.
    - destruct B as ((l & L & A & N & R) & Mn). destruct l as [|x [|y [|]]]; try discriminate. split.
      + exists [y; x]. rewrite val. repeat split; auto. now apply sw.
      + intros q' ([|y' [|x' [|]]] & L' & A' & N' & R'); try discriminate. apply Mn. exists [x'; y']. rewrite val in R'. repeat split; auto. now apply sw.
    - intros r (l & L & A & N & R). destruct l as [|y [|x [|]]]; try discriminate. apply (B r). exists [x; y]. rewrite val in R. repeat split; auto. now apply sw. }
  auto.
Qed.
Section Pairs.
Variables (nv : nat) (conx : list (list nat)) (types : list (list Z)) (metrics : list Qc) (flag : bool) (alpha : Qc).
Definition tab (f : nat -> nat -> Qc) : list (list Qc) := map (fun c => map (f c) (seq 0 nv)) (seq 0 (length conx)).
Definition pair_D (Vt : list (list Qc)) (c v : nat) : Qc :=
  match nth c conx [], signs (nth c types []) with
  | [a; b], [s; s'] => if v =? a then pair_message s s' (qat Vt c b) else pair_message s' s (qat Vt c a)
  | _, _ => 0%Qc
  end.
Definition pair_step (st : list (list Qc) * list (list Qc)) : list (list Qc) * list (list Qc) :=
  let a := effective flag alpha in
  let M := tab (fun c v => a * qat (snd st) c v + (1 - a) * pair_D (fst st) c v)%Qc in
  (tab (fun c v => nth v metrics 0 + qsum (map (fun c' => qat M c' v) (filter (fun c' => occurs v (nth c' conx [])) (others c (seq 0 (length conx))))))%Qc, M).
Fixpoint pair_state (t : nat) : list (list Qc) * list (list Qc) :=
  match t with O => (tab (fun _ v => nth v metrics 0%Qc), tab (fun _ _ => 0%Qc)) | S t => pair_step (pair_state t) end.
Definition pV t c v := qat (fst (pair_state t)) c v.
Definition pD t c v := pair_D (fst (pair_state t)) c v.
Definition pM t c v := qat (snd (pair_state (S t))) c v.
Lemma qat_tab f c v : c < length conx -> v < nv -> qat (tab f) c v = f c v.
Proof.
  intros Hc Hv. unfold qat, tab. rewrite (nth_indep _ [] (map (f 0) (seq 0 nv))) by (rewrite map_length, seq_length; auto).
  rewrite (map_nth (fun c => map (f c) (seq 0 nv)) (seq 0 (length conx)) 0), seq_nth by auto. cbn [Nat.add].
  rewrite (nth_indep _ 0%Qc (f c 0)) by (rewrite map_length, seq_length; auto). rewrite map_nth, seq_nth by auto. reflexivity.
Qed.
Lemma pair_messages : (forall c cx tys, nth_error conx c = Some cx -> nth_error types c = Some tys ->
    length cx = 2 /\ length tys = 2 /\ NoDup cx /\ Forall (fun v => v < nv) cx) ->
  clause_messages conx types metrics flag alpha pV pD pM.
Proof.
  intros W c cx tys Ec Et j v Ej. destruct (W c cx tys Ec Et) as (L1 & L2 & N & B). rewrite Forall_forall in B.
  assert (Hc : c < length conx) by (apply nth_error_Some; congruence). assert (Hv : v < nv) by (apply B; eapply nth_error_In; eauto).
  split; [unfold pV; cbn [pair_state fst]; now rewrite qat_tab|]. intro t. split; [|split].
  - unfold pD, pair_D. rewrite (nth_error_nth _ _ _ Ec), (nth_error_nth _ _ _ Et).
    destruct cx as [|a [|b [|]]]; try discriminate. destruct tys as [|s [|s' [|]]]; try discriminate. unfold signs. cbn [map].
    destruct j as [|[|j]]; cbn in Ej; [| |destruct j; discriminate]; injection Ej as ->.
    + rewrite Nat.eqb_refl. apply pair_first.
    + destruct (Nat.eqb_spec v a) as [->|_]; [inversion N; cbn in *; tauto|]. apply pair_second.
  - induction t as [|t IH].
    + rewrite filtered_0. unfold pM. cbn [pair_state]. unfold pair_step at 1. cbn [snd]. rewrite !qat_tab by auto. unfold pD. cbn [pair_state fst]. ring.
    + rewrite filtered_S, <- IH. unfold pM at 1. change (pair_state (S (S t))) with (pair_step (pair_state (S t))). unfold pair_step at 1. cbn [snd].
      rewrite qat_tab by auto. reflexivity.
  - unfold pV. rewrite Nat.add_1_r. cbn [pair_state]. unfold pair_step at 1. cbn [fst]. rewrite qat_tab by auto. reflexivity.
Qed.
End Pairs.

(** A ring of three clauses, (1 or 0), (2 or 1), (2 or not 0), without filtering: the messages repeat
    from the fourth iteration on, so the reported assignment is a cheapest one although the formula
    has a cycle. *)
Definition ring_draws : list draw := [d2 1 0 true; d2 2 1 true; d2 2 0 false].
Definition ring_metrics : list Qc := map zq [5; 4; 2]%Z.
Ltac edges := intros c v I; destruct c as [|[|[|c]]]; cbn in I; [| | |destruct c; destruct I]; intuition subst; vm_compute; split; discriminate.
Example C77_example : exists f ext o,
  py_ksat_run 3 2 [false; true; true] (fun l => l) ring_draws (map Fin ring_metrics) 4 false n0 n0 false 0 (fun l => l) (fun l => l)
    = Some (f, map Fin ext, o) /\
  y_conx f = [[1; 0]; [2; 1]; [2; 0]] /\ y_types f = [[1; 1]; [1; 1]; [1; -1]]%Z /\ y_used f = [1; 2; 0] /\
  clause_messages (y_conx f) (y_types f) ring_metrics false 0 (pV 3 (y_conx f) (y_types f) ring_metrics false 0)
    (pD 3 (y_conx f) (y_types f) ring_metrics false 0) (pM 3 (y_conx f) (y_types f) ring_metrics false 0) /\
  (* settled, and decided by a margin *)
  (forall c v, In v (nth c (y_conx f) []) ->
     close 0 (pD 3 (y_conx f) (y_types f) ring_metrics false 0 4 c v) (pM 3 (y_conx f) (y_types f) ring_metrics false 0 3 c v)) /\
  map (fun v => this (nth v ext 0 + nth v ring_metrics 0)%Qc) [0; 1; 2] = [5; -5; 2]%Q /\
  (* conclusion *)
  k_flag o = true /\ map view (k_hd o) = [VFin 0; VFin 1; VFin 0] /\
  forall y, length y = 3 -> satisfies (y_conx f) (y_types f) y ->
    (cost_on (y_used f) ring_metrics [false; true; false] <= cost_on (y_used f) ring_metrics y)%Qc.
Proof.
  assert (Hd : Forall (valid_draw 3 2) ring_draws).
  { repeat constructor; cbn; try lia; intros [|[|j]] i s X; try discriminate; cbn in X; injection X as <- <-; lia. }
  assert (C : exists f ext o, py_ksat_run 3 2 [false; true; true] (fun l => l) ring_draws (map Fin ring_metrics) 4 false n0 n0 false 0 (fun l => l) (fun l => l)
    = Some (f, map Fin ext, o) /\ y_conx f = [[1; 0]; [2; 1]; [2; 0]] /\ y_types f = [[1; 1]; [1; 1]; [1; -1]]%Z /\ y_used f = [1; 2; 0] /\
    map (fun v => this (nth v ext 0 + nth v ring_metrics 0)%Qc) [0; 1; 2] = [5; -5; 2]%Q /\ k_flag o = true /\ map view (k_hd o) = [VFin 0; VFin 1; VFin 0]).
  { eexists _, (map zq [0; -9; 0]%Z), _. split; [vm_compute; reflexivity|]. repeat split. }
  destruct C as (f & ext & o & E & E1 & E2 & E3 & Eb & Ef & Eh). exists f, ext, o.
  assert (Ms : clause_messages (y_conx f) (y_types f) ring_metrics false 0 (pV 3 (y_conx f) (y_types f) ring_metrics false 0)
    (pD 3 (y_conx f) (y_types f) ring_metrics false 0) (pM 3 (y_conx f) (y_types f) ring_metrics false 0)).
  { apply pair_messages. rewrite E1, E2. intros c cx tys H1 H2. destruct c as [|[|[|c]]]; cbn in H1, H2; try (destruct c; discriminate);
      injection H1 as <-; injection H2 as <-; repeat split; repeat constructor; cbn; lia. }
  assert (St : forall c v, In v (nth c (y_conx f) []) ->
     close 0 (pD 3 (y_conx f) (y_types f) ring_metrics false 0 4 c v) (pM 3 (y_conx f) (y_types f) ring_metrics false 0 3 c v)).
  { rewrite E1, E2. edges. }
  repeat (split; [assumption|]).
  destruct (C77_settled 3 2 [false; true; true] (fun l => l) (fun l => l) (fun l => l) ring_draws ring_metrics 4 false 0 0 false 0 f ext o
    _ _ _ 0%Qc 0%Qc ltac:(lia) eq_refl Hd eq_refl ltac:(intros; apply Permutation_refl) ltac:(intros; apply Permutation_refl) ltac:(intros; apply Permutation_refl) E
    ltac:(lia) Ms ltac:(apply Qcle_refl) ltac:(apply Qcle_refl) ltac:(split; discriminate) (fun c v I => close_supports _ _ _ _ (St c v I))) as (_ & x & Lx & Sx & Hx & Opt).
  - rewrite E3. intros v Iv. pose proof (f_equal (fun l => nth 0 l 0%Q) Eb) as B0; cbn [nth map] in B0. pose proof (f_equal (fun l => nth 1 l 0%Q) Eb) as B1; cbn [nth map] in B1. pose proof (f_equal (fun l => nth 2 l 0%Q) Eb) as B2; cbn [nth map] in B2. cbn in Iv.
    destruct Iv as [<-|[<-|[<-|[]]]]; unfold Qclt; [left; rewrite B1|right; rewrite B2|right; rewrite B0]; reflexivity.
  - assert (x = [false; true; false]) as ->.
    { clear - Eh Hx Lx E3. rewrite E3 in Hx. destruct (k_hd o) as [|h0 [|h1 [|h2 [|]]]]; try discriminate. destruct x as [|x0 [|x1 [|x2 [|]]]]; try discriminate.
      pose proof (Hx 0 ltac:(cbn; auto)) as H0. pose proof (Hx 1 ltac:(cbn; auto)) as H1. pose proof (Hx 2 ltac:(cbn; auto)) as H2.
      cbn in H0, H1, H2. injection H0 as ->. injection H1 as ->. injection H2 as ->. cbn in Eh. destruct x0, x1, x2; try discriminate; reflexivity. }
    intros y Ly Sy. destruct (Opt y (fun _ => true) Ly Sy) as (Q & _); [intros c v Ac; discriminate Ac|].
    assert (Z : forall l, qsum (map (fun v => qn (pred (occurrences (filter (fun _ => true) (seq 0 (length (y_conx f)))) (fun c => nth c (y_conx f) []) v)) * 0)%Qc l) = 0%Qc).
    { intro l. apply sum_zero. intros. ring. }
    rewrite Z, Qcplus_0_r in Q. apply Q. rewrite E1. exists (fun c => match c with 0 => 1 | 1 => 2 | _ => 0 end).
    clear. intros v c c' _ I I' H H' N. cbn in I, I'.
    destruct I as [<-|[<-|[<-|[]]]]; destruct I' as [<-|[<-|[<-|[]]]]; try congruence; cbn in H, H'; lia.
Qed.

(** The chain of [C61_example] with filter factor 1/2: after twelve iterations another one changes the
    messages by at most 1/16, which is enough for the optimality of the reported assignment. *)
Example C77_tree_example : exists f ext o,
  py_ksat_run 4 2 [true; true; true; true] (fun l => l) chain_draws (map Fin chain_metrics) 12 true (Fin (Q2Qc (1 # 2))) n0
      false 0 (fun l => l) (fun l => l) = Some (f, map Fin ext, o) /\
  (forall c v, In v (nth c (y_conx f) []) ->
     close (Q2Qc (1 # 16)) (pD 4 (y_conx f) (y_types f) chain_metrics true (Q2Qc (1 # 2)) 12 c v)
       (pM 4 (y_conx f) (y_types f) chain_metrics true (Q2Qc (1 # 2)) 11 c v)) /\
  map (fun v => this (nth v ext 0 + nth v chain_metrics 0)%Qc) [0; 1; 2; 3] = [- 4269 # 8192; - 4117 # 8192; - 503 # 1024; - 919 # 2048]%Q /\
  k_flag o = true /\
  forall y root, length y = 4 -> satisfies (y_conx f) (y_types f) y -> In root (y_used f) -> nth root y false = false ->
    (cost_on (y_used f) chain_metrics chain_best + Q2Qc (1 # 8) < cost_on (y_used f) chain_metrics y)%Qc.
Proof.
  assert (C : exists f ext o, py_ksat_run 4 2 [true; true; true; true] (fun l => l) chain_draws (map Fin chain_metrics) 12 true (Fin (Q2Qc (1 # 2))) n0
      false 0 (fun l => l) (fun l => l) = Some (f, map Fin ext, o) /\ y_conx f = [[1; 0]; [2; 1]; [3; 2]] /\ y_types f = [[1; -1]; [1; -1]; [1; -1]]%Z /\ y_used f = [0; 1; 3; 2] /\
    map (fun v => this (nth v ext 0 + nth v chain_metrics 0)%Qc) [0; 1; 2; 3] = [- 4269 # 8192; - 4117 # 8192; - 503 # 1024; - 919 # 2048]%Q /\
    map view (k_hd o) = [VFin 1; VFin 1; VFin 1; VFin 1]).
  { set (run := py_ksat_run 4 2 [true; true; true; true] (fun l => l) chain_draws (map Fin chain_metrics) 12 true (Fin (Q2Qc (1 # 2))) n0
      false 0 (fun l => l) (fun l => l)).
    eexists _, (match run with Some (_, e, _) => map (fun n => match n with Fin q => q | _ => 0%Qc end) e | None => [] end), _. split; [vm_compute; reflexivity|]. repeat split. }
  destruct C as (f & ext & o & E & E1 & E2 & E3 & Eb & Eh). exists f, ext, o. split; [exact E|].
  assert (Ms : clause_messages (y_conx f) (y_types f) chain_metrics true (Q2Qc (1 # 2)) (pV 4 (y_conx f) (y_types f) chain_metrics true (Q2Qc (1 # 2)))
    (pD 4 (y_conx f) (y_types f) chain_metrics true (Q2Qc (1 # 2))) (pM 4 (y_conx f) (y_types f) chain_metrics true (Q2Qc (1 # 2)))).
  { apply pair_messages. rewrite E1, E2. intros c cx tys H1 H2. destruct c as [|[|[|c]]]; cbn in H1, H2; try (destruct c; discriminate);
      injection H1 as <-; injection H2 as <-; repeat split; repeat constructor; cbn; lia. }
  assert (St : forall c v, In v (nth c (y_conx f) []) ->
     close (Q2Qc (1 # 16)) (pD 4 (y_conx f) (y_types f) chain_metrics true (Q2Qc (1 # 2)) 12 c v)
       (pM 4 (y_conx f) (y_types f) chain_metrics true (Q2Qc (1 # 2)) 11 c v)).
  { rewrite E1, E2. edges. }
  split; [exact St|]. split; [exact Eb|]. pose proof (f_equal (fun l => nth 0 l 0%Q) Eb) as B0; cbn [nth map] in B0. pose proof (f_equal (fun l => nth 1 l 0%Q) Eb) as B1; cbn [nth map] in B1. pose proof (f_equal (fun l => nth 2 l 0%Q) Eb) as B2; cbn [nth map] in B2. pose proof (f_equal (fun l => nth 3 l 0%Q) Eb) as B3; cbn [nth map] in B3.
  destruct C58_example as (f' & Ef' & _ & _ & Hd & Tr & _).
  assert (f' = f) by (apply run_formula in E; congruence). subst f'.
  destruct (C77_tree 4 2 [true; true; true; true] (fun l => l) (fun l => l) (fun l => l) chain_draws chain_metrics 12 true (Q2Qc (1 # 2)) 0 false 0 f ext o
    _ _ _ (Q2Qc (1 # 16)) (Q2Qc (1 # 16)) ltac:(lia) eq_refl Hd eq_refl ltac:(intros; apply Permutation_refl) ltac:(intros; apply Permutation_refl) ltac:(intros; apply Permutation_refl) E
    ltac:(lia) Ms ltac:(discriminate) ltac:(apply Qcle_refl) ltac:(split; discriminate) (fun c v I => close_supports _ _ _ _ (St c v I))) as (Fl & x & Lx & Sx & Hx & Opt); auto.
  - rewrite E3. intros v Iv. cbn in Iv. unfold Qclt. left. destruct Iv as [<-|[<-|[<-|[<-|[]]]]]; rewrite ?B0, ?B1, ?B2, ?B3; reflexivity.
  - split; [exact Fl|]. assert (x = chain_best) as ->.
    { clear - Eh Hx Lx E3. rewrite E3 in Hx. destruct (k_hd o) as [|h0 [|h1 [|h2 [|h3 [|]]]]]; try discriminate. destruct x as [|x0 [|x1 [|x2 [|x3 [|]]]]]; try discriminate.
      pose proof (Hx 0 ltac:(cbn; auto)) as H0. pose proof (Hx 1 ltac:(cbn; auto)) as H1. pose proof (Hx 2 ltac:(cbn; auto)) as H2. pose proof (Hx 3 ltac:(cbn; auto)) as H3.
      cbn in H0, H1, H2, H3. injection H0 as ->. injection H1 as ->. injection H2 as ->. injection H3 as ->. cbn in Eh. destruct x0, x1, x2, x3; try discriminate; reflexivity. }
    clear E. intros y root Ly Sy Ir Dr.
    assert (Mg : (Q2Qc (7 # 16) < magnitude (nth root ext 0 + nth root chain_metrics 0))%Qc).
    { clear - Ir E3 B0 B1 B2 B3. rewrite E3 in Ir. cbn in Ir. destruct Ir as [<-|[<-|[<-|[<-|[]]]]].
      all: match goal with |- (_ < magnitude ?q)%Qc => assert (Z : (q < 0)%Qc) by (unfold Qclt; rewrite ?B0, ?B1, ?B2, ?B3; reflexivity);
        unfold magnitude; destruct (qltb_spec q 0); [|qlra]; assert (W : (q < - Q2Qc (7 # 16))%Qc) by (unfold Qclt; rewrite ?B0, ?B1, ?B2, ?B3; reflexivity); qlra end. }
    assert (Dr' : differ chain_best y root = true).
    { unfold differ. rewrite Dr. rewrite E3 in Ir. cbn in Ir. destruct Ir as [<-|[<-|[<-|[<-|[]]]]]; reflexivity. }
    specialize (Opt y root Ly Sy Ir Dr'). rewrite E1, E3 in Opt. set (cx := [[1; 0]; [2; 1]; [3; 2]]) in Opt. set (us := [0; 1; 3; 2]) in Opt.
    assert (Sl : (qsum (map (fun v => qn (pred (occurrences (seq 0 (length cx)) (fun c => nth c cx []) v)) * Q2Qc (1 # 16))%Qc
      (filter (differ chain_best y) us)) <= Q2Qc (1 # 8))%Qc).
    { clear - Ly. destruct y as [|y0 [|y1 [|y2 [|y3 [|]]]]]; try discriminate. clear. destruct y0, y1, y2, y3; vm_compute; discriminate. }
    rewrite E3. fold us. clear - Sl Opt Mg. set (u := Q2Qc (1 # 16)) in *.
    assert (K1 : Q2Qc (7 # 16) = (u + u + u + u + u + u + u)%Qc) by (apply Qc_is_canon; reflexivity).
    assert (K2 : Q2Qc (1 # 8) = (u + u)%Qc) by (apply Qc_is_canon; reflexivity).
    assert (K3 : (0 < u)%Qc) by reflexivity. rewrite K1 in Mg. rewrite K2 in *. clearbody u. qlra.
Qed.

Print Assumptions C77_settled.
Print Assumptions C77_tree.
Print Assumptions C77_flip.
Print Assumptions C77_example.
Print Assumptions C77_tree_example.
