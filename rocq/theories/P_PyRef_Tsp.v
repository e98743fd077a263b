(** * Whole runs of the pure Python TSP solver and of the C++ library *)
From Coq Require Import Permutation.
From Verif Require Import Num NumFacts Arr ArrFacts Spec SpecGraph SpecRun MinSum MinSumFacts.
From Verif Require Import M_Tsp_Constraints P_Tsp_Constraints P_Kc_Trellis P_Ksat M_Equality P_Equality.
From Verif Require Import M_Filter P_Filter M_InOut P_InOut M_Runs P_Runs P_Schedule.
From Verif Require Import M_Tsp_Loops P_Tsp_Loops M_Tsp_Run P_Tsp_Run P_Tsp_Fin P_Tsp_Sched P_Tsp_Rounds.
From Verif Require Import P_Ksat_Py M_Tsp_Py P_Tsp_Py M_PyRef M_PyRef_Kc M_PyRef_Ksat M_PyRef_Run M_PyRef_Tsp P_PyRef P_PyRef_Run.
Local Open Scope nat_scope.

(** ** Closed loops *)

Definition as_option (l : list nat) : option (list nat) := match l with [] => None | _ => Some l end.

Lemma find_loop_same fuel g start : forall cur visited path,
  py_find_loop fuel g start cur visited path
  = match find_closed_loop fuel g start cur visited path with Some l => Some (as_option l) | None => None end.
Proof.
  induction fuel as [|fuel IH]; intros cur visited path; [reflexivity|]. cbn [py_find_loop find_closed_loop].
  destruct (cur =? start).
  { destruct (path ++ [cur]) eqn:Q; [destruct path; discriminate|reflexivity]. }
  destruct (lookup g cur) as [nodes|]; [|reflexivity].
  induction nodes as [|node nodes IHn]; [reflexivity|].
  destruct (existsb (Nat.eqb node) (cur :: visited)); [exact IHn|].
  rewrite IH. destruct (find_closed_loop fuel g start node (cur :: visited) (path ++ [cur])) as [[|x l]|]; cbn [bind as_option]; auto.
Qed.

(** keep an element unless it is bad or covered by one already kept *)
Fixpoint kept_of {A} (bad : A -> bool) (cov : A -> A -> bool) (acc L : list A) : list A :=
  match L with
  | [] => []
  | l :: L => if bad l || existsb (fun k => cov k l) acc then kept_of bad cov acc L
              else l :: kept_of bad cov (acc ++ [l]) L
  end.
Lemma kept_of_rem {A} (bad : A -> bool) cov (L : list A) (d : A) (rem : list nat) :
  (forall j, j < length L -> (In j rem <-> bad (nth j L d) = true \/
     exists i, i < j /\ ~ In i rem /\ cov (nth i L d) (nth j L d) = true)) ->
  map (fun i => nth i L d) (filter (fun i => negb (existsb (Nat.eqb i) rem)) (seq 0 (length L)))
  = kept_of bad cov [] L.
Proof.
  intros H.
  assert (G : forall m k, k + m = length L ->
    map (fun i => nth i L d) (filter (fun i => negb (existsb (Nat.eqb i) rem)) (seq k m))
    = kept_of bad cov (map (fun i => nth i L d) (filter (fun i => negb (existsb (Nat.eqb i) rem)) (seq 0 k))) (skipn k L)).
  { induction m as [|m IH]; intros k Hk.
    - rewrite skipn_all2 by lia. reflexivity.
    - cbn [seq filter]. assert (Hkl : k < length L) by lia.
      assert (Sk : skipn k L = nth k L d :: skipn (k + 1) L).
      { clear - Hkl. revert k Hkl. induction L as [|a L IH]; intros [|k] Hk; cbn in *; try lia; auto. apply IH; lia. }
      rewrite Sk. cbn [kept_of]. specialize (IH (k + 1) ltac:(lia)).
      replace (S k) with (k + 1) by lia. rewrite seq_app, filter_app, map_app in IH. cbn [seq filter Nat.add] in IH.
      assert (Q : (bad (nth k L d) || existsb (fun x => cov x (nth k L d)) (map (fun i => nth i L d)
                   (filter (fun i => negb (existsb (Nat.eqb i) rem)) (seq 0 k)))) = existsb (Nat.eqb k) rem).
      { apply eq_true_iff_eq. rewrite existsb_in, H, orb_true_iff, existsb_exists by auto.
        apply or_iff_compat_l. split.
        - intros (x & I & C). apply in_map_iff in I as (i & <- & I). apply filter_In in I as (I & N). apply in_seq in I.
          exists i. split; [lia|]. split; [|exact C]. apply negb_true_iff in N. apply existsb_nin, N.
        - intros (i & Hi & N & C). exists (nth i L d). split; auto. apply in_map_iff. exists i. split; auto.
          apply filter_In. split; [apply in_seq; lia|]. apply existsb_nin in N. rewrite N. reflexivity. }
      rewrite Q. destruct (existsb (Nat.eqb k) rem); cbn [negb map] in *.
      + rewrite IH, app_nil_r. reflexivity.
      + rewrite IH. reflexivity. }
  specialize (G (length L) 0 eq_refl). cbn [seq filter map skipn] in G. exact G.
Qed.

(** C++ *)
Lemma keep_loops_kept L : Forall (fun l => l <> []) L ->
  keep_loops L = kept_of (fun _ => false) covers [] L.
Proof.
  intros HL. unfold keep_loops. apply kept_of_rem. intros j Hj.
  destruct (to_drop_inv L HL (length L) (le_n _)) as (I1 & I2). fold (to_drop L) in I1, I2. split.
  - intros I. right. destruct (I1 j I) as (i & A & B & C & D). exists i. repeat split; auto; lia.
  - intros [X|(i & A & B & C)]; [discriminate|]. apply (I2 i j); auto; lia.
Qed.

(** Python *)
Definition pcov (a b : option (list nat)) : bool :=
  match a, b with Some l1, Some l2 => py_slice_of l1 l2 | _, _ => false end.
Definition pbad (a : option (list nat)) : bool := match a with None => true | _ => false end.
Section PyFilter.
Variable L : list (option (list nat)).
Let at_ (i : nat) := nth i L None.
Lemma py_inner_fold l1 : forall k a rem, forall j,
  In j (fold_left (py_drop_inner L l1) (seq a k) rem) <->
  In j rem \/ (a <= j < a + k /\ (at_ j = None \/ exists l2, at_ j = Some l2 /\ py_slice_of l1 l2 = true)).
Proof.
  induction k as [|k IH]; intros a rem j; cbn [seq fold_left].
  - split; [auto|intros [H|H]; [exact H|lia]].
  - rewrite IH. unfold py_drop_inner. fold (at_ a). destruct (at_ a) as [l2|] eqn:Ea; [destruct (py_slice_of l1 l2) eqn:Es|].
    + rewrite in_app_iff; cbn [In]. split.
      * intros [[H|[<-|[]]]|(H & X)]; [auto|right; split; [lia|right; eauto]|right; split; [lia|auto]].
      * intros [H|(H & X)]; [auto|]. destruct (Nat.eq_dec a j) as [->|]; [auto|right; split; [lia|auto]].
    + split.
      * intros [H|(H & X)]; [auto|right; split; [lia|auto]].
      * intros [H|(H & X)]; [auto|]. destruct (Nat.eq_dec a j) as [->|]; [|right; split; [lia|auto]].
        destruct X as [X|(l3 & X & Y)]; congruence.
    + rewrite in_app_iff; cbn [In]. split.
      * intros [[H|[<-|[]]]|(H & X)]; [auto|right; split; [lia|auto]|right; split; [lia|auto]].
      * intros [H|(H & X)]; [auto|]. destruct (Nat.eq_dec a j) as [->|]; [auto|right; split; [lia|auto]].
Qed.
Lemma py_outer_inv : forall k, k <= length L -> let rem := fold_left (py_drop_outer L) (seq 0 k) [] in
  (forall j, In j rem -> j < length L /\ (at_ j = None \/
     exists i l1 l2, i < k /\ i < j /\ at_ i = Some l1 /\ at_ j = Some l2 /\ py_slice_of l1 l2 = true /\ ~ In i rem)) /\
  (forall i, i < k -> at_ i = None -> In i rem) /\
  (forall i j l1 l2, i < k -> i < j < length L -> at_ i = Some l1 -> at_ j = Some l2 -> ~ In i rem ->
     py_slice_of l1 l2 = true -> In j rem).
Proof.
  induction k as [|k IH]; intros Hk rem; subst rem.
  - cbn. split; [intros j []|]. split; intros; lia.
  - rewrite seq_S, fold_left_app; cbn [fold_left Nat.add].
    specialize (IH ltac:(lia)). cbn zeta in IH. set (rem := fold_left (py_drop_outer L) (seq 0 k) []) in *.
    destruct IH as (I1 & I2 & I3). unfold py_drop_outer; fold (at_ k).
    destruct (at_ k) as [lk|] eqn:Ak; [destruct (existsb (Nat.eqb k) rem) eqn:Ek|].
    + apply existsb_in in Ek. split; [|split].
      * intros j Hj. destruct (I1 j Hj) as (B & [N|(i & l1 & l2 & X)]); split; auto. right.
        exists i, l1, l2. repeat split; try tauto; lia.
      * intros i Hi N. destruct (Nat.eq_dec i k) as [->|]; [congruence|]. apply I2; auto; lia.
      * intros i j l1 l2 Hi Hj A1 A2 Ni C. destruct (Nat.eq_dec i k) as [->|]; [congruence|].
        apply (I3 i j l1 l2); auto; lia.
    + apply existsb_nin in Ek.
      pose proof (py_inner_fold lk (length L - (k + 1)) (k + 1) rem) as F.
      set (rem' := fold_left _ _ rem) in *.
      assert (G : forall i, i <= k -> ~ In i rem -> ~ In i rem').
      { intros i Hi N H; apply F in H as [H|(H & _)]; [auto|lia]. }
      split; [|split].
      * intros j Hj; apply F in Hj as [Hj|(Hj & C)].
        -- destruct (I1 j Hj) as (B & [N|(i & l1 & l2 & X1 & X2 & X3 & X4 & X5 & X6)]); split; auto. right.
           exists i, l1, l2. repeat split; auto; try lia. apply G; [lia|auto].
        -- split; [lia|]. destruct C as [C|(l2 & C & D)]; [auto|]. right. exists k, lk, l2. repeat split; auto; lia.
      * intros i Hi N. apply F. destruct (Nat.eq_dec i k) as [->|]; [congruence|]. left. apply I2; auto; lia.
      * intros i j l1 l2 Hi Hj A1 A2 Ni C. apply F.
        assert (Ni' : ~ In i rem) by (intros H; apply Ni, F; now left).
        destruct (Nat.eq_dec i k) as [->|].
        -- right. split; [lia|]. right. exists l2. split; auto. congruence.
        -- left. apply (I3 i j l1 l2); auto; lia.
    + split; [|split].
      * intros j Hj. apply in_app_iff in Hj as [Hj|[<-|[]]]; [|split; [lia|auto]].
        destruct (I1 j Hj) as (B & [N|(i & l1 & l2 & X1 & X2 & X3 & X4 & X5 & X6)]); split; auto. right.
        exists i, l1, l2. repeat split; auto; try lia. rewrite in_app_iff. intros [Y|[Y|[]]]; [auto|subst; congruence].
      * intros i Hi N. apply in_app_iff. destruct (Nat.eq_dec i k) as [->|]; [right; now left|left; apply I2; auto; lia].
      * intros i j l1 l2 Hi Hj A1 A2 Ni C. apply in_app_iff.
        destruct (Nat.eq_dec i k) as [->|]; [congruence|]. left.
        apply (I3 i j l1 l2); auto; try lia. intros X; apply Ni, in_app_iff; auto.
Qed.
Lemma py_kept : map at_ (filter (fun i => negb (existsb (Nat.eqb i) (fold_left (py_drop_outer L) (seq 0 (length L)) [])))
                          (seq 0 (length L))) = kept_of pbad pcov [] L.
Proof.
  unfold at_. apply kept_of_rem. intros j Hj. fold (at_ j).
  destruct (py_outer_inv (length L) (le_n _)) as (I1 & I2 & I3). split.
  - intros I. destruct (I1 j I) as (_ & [N|(i & l1 & l2 & X1 & X2 & X3 & X4 & X5 & X6)]).
    + left. rewrite N. reflexivity.
    + right. exists i. split; auto. split; auto. fold (at_ i). rewrite X3, X4. exact X5.
  - intros [N|(i & Hi & Ni & C)].
    + apply I2; auto. destruct (at_ j); [discriminate|reflexivity].
    + fold (at_ i) in C. unfold pcov in C. destruct (at_ i) as [l1|] eqn:A1; [|discriminate].
      destruct (at_ j) as [l2|] eqn:A2; [|discriminate]. apply (I3 i j l1 l2); auto; lia.
Qed.
End PyFilter.

(** the two tests agree on simple loops *)
Lemma slice_covers l1 l2 : NoDup l2 -> py_slice_of l1 l2 = covers l1 l2.
Proof.
  intros N2.
  assert (B : forall i, firstn (length l2) (skipn i (l1 ++ l1)) = l2 -> length l2 <= length l1).
  { intros i Q. apply NoDup_incl_length; auto. intros x I. rewrite <- Q in I.
    assert (J : In x (l1 ++ l1)).
    { rewrite <- (firstn_skipn i (l1 ++ l1)). apply in_or_app; right.
      rewrite <- (firstn_skipn (length l2) (skipn i (l1 ++ l1))). apply in_or_app; now left. }
    apply in_app_iff in J. tauto. }
  unfold py_slice_of, covers, is_subsequence. rewrite app_length. apply eq_true_iff_eq.
  rewrite andb_true_iff, negb_true_iff, Nat.ltb_ge, !existsb_exists. split.
  - intros (i & I & Q). apply in_seq in I. apply list_eqb_eq in Q as Q'. pose proof (B i Q') as Bi.
    split; [lia|]. exists i. split; [apply in_seq; lia|auto].
  - intros (Hl & i & I & Q). apply in_seq in I. apply list_eqb_eq in Q as Q'. pose proof (B i Q') as Bi.
    destruct (Nat.lt_ge_cases i (length l1)) as [Hi|Hi].
    + exists i. split; [apply in_seq; lia|auto].
    + exists (i - length l1). split; [apply in_seq; lia|]. apply list_eqb_eq.
      rewrite skipn_app, (skipn_all2 l1) in Q' by lia. cbn [app] in Q'.
      rewrite skipn_app, firstn_app.
      replace (length l2 - length (skipn (i - length l1) l1)) with 0.
      * cbn [firstn]. rewrite app_nil_r. exact Q'.
      * rewrite skipn_length. lia.
Qed.

Definition somes (L : list (option (list nat))) : list (list nat) :=
  flat_map (fun a => match a with Some l => [l] | None => [] end) L.
Lemma somes_app A B : somes (A ++ B) = somes A ++ somes B.
Proof. unfold somes. apply flat_map_app. Qed.
Lemma kept_somes : forall L acc, Forall (fun l => NoDup l) (somes L) ->
  kept_of pbad pcov (map Some acc) L = map Some (kept_of (fun _ => false) covers acc (somes L)).
Proof.
  induction L as [|[l|] L IH]; intros acc HL; [reflexivity| |].
  - change (somes (Some l :: L)) with (l :: somes L) in *. inversion HL as [|? ? N HL']; subst. cbn [kept_of pbad orb].
    assert (Q : existsb (fun k => pcov k (Some l)) (map Some acc) = existsb (fun k => covers k l) acc).
    { clear - N. induction acc as [|a acc IH]; cbn; auto. rewrite IH, (slice_covers a l N). reflexivity. }
    rewrite Q. destruct (existsb _ acc); [apply IH; auto|]. cbn [map]. f_equal.
    change [Some l] with (map Some [l]). rewrite <- map_app. apply IH; auto.
  - cbn [kept_of pbad orb]. apply IH; auto.
Qed.

Definition rot1 (l : list nat) : list nat := last l 0 :: removelast l.
Lemma py_all_loops_ok E : exists L, py_all_loops E = Some L /\ somes L = found E (keys (build_graph E)).
Proof.
  unfold py_all_loops.
  assert (K : forall g0, incl g0 (build_graph E) -> forall acc,
    exists L, foldM (fun loops entry =>
      foldM (fun loops e =>
        r <- py_find_loop (length E + 1) (build_graph E) (fst entry) e [] [] ;; Some (loops ++ [r]))
        (snd entry) loops) g0 acc = Some (acc ++ L) /\ somes L = found E (keys g0)).
  { induction g0 as [|[s ends] g0 IH]; intros I acc.
    - exists []. cbn. rewrite app_nil_r. auto.
    - cbn [foldM fst snd].
      assert (Lk : lookup (build_graph E) s = Some ends).
      { assert (ND := keys_nodup E). specialize (I (s, ends) (or_introl eq_refl)). unfold keys in ND.
        clear - I ND. induction (build_graph E) as [|[k vs] g IHg]; [destruct I|]. cbn [lookup map fst] in *.
        inversion ND as [|? ? Nk ND']; subst. destruct I as [Q|I].
        - injection Q as -> ->. rewrite Nat.eqb_refl. reflexivity.
        - destruct (Nat.eqb_spec k s) as [->|]; auto. exfalso. apply Nk. apply in_map_iff. exists (s, ends). auto. }
      assert (Se : ends = succs E s).
      { rewrite lookup_build in Lk. destruct (succs E s); [discriminate|]. injection Lk as <-. reflexivity. }
      assert (G : forall ends acc, incl ends (succs E s) ->
        exists L, foldM (fun loops e =>
          r <- py_find_loop (length E + 1) (build_graph E) s e [] [] ;; Some (loops ++ [r])) ends acc = Some (acc ++ L) /\
          somes L = flat_map (fun e => match loop_from E s e with [] => [] | p => [p] end) ends).
      { clear. induction ends as [|e ends IHe]; intros acc I.
        - exists []. cbn. rewrite app_nil_r. auto.
        - cbn [foldM flat_map]. rewrite find_loop_same, loop_from_eq by (apply in_succs, I; now left). cbn [bind].
          destruct (IHe (acc ++ [as_option (loop_from E s e)])) as (L & E1 & E2); [intros x Hx; apply I; now right|].
          rewrite E1, <- app_assoc. exists (as_option (loop_from E s e) :: L). split; [reflexivity|].
          change (as_option (loop_from E s e) :: L) with ([as_option (loop_from E s e)] ++ L).
          rewrite somes_app, E2. f_equal. destruct (loop_from E s e); reflexivity. }
      destruct (G ends acc) as (L1 & E1 & E2); [rewrite Se; apply incl_refl|]. rewrite E1. cbn [bind].
      destruct (IH (fun x Hx => I x (or_intror Hx)) (acc ++ L1)) as (L2 & E3 & E4).
      rewrite E3, <- app_assoc. exists (L1 ++ L2). split; [reflexivity|]. rewrite somes_app, E2, E4.
      unfold found. cbn [keys map fst flat_map]. rewrite Se. reflexivity. }
  destruct (K (build_graph E) (incl_refl _) []) as (L & E1 & E2). exists L. cbn [app] in E1. auto.
Qed.

Lemma closed_loops_same E : exists loops, get_closed_loops (fun l => l) E = Some loops /\
  py_get_closed_loops E = Some (map rot1 loops) /\ Forall (cycle E) loops.
Proof.
  unfold get_closed_loops, py_get_closed_loops. rewrite all_loops_eq by auto. cbn [bind].
  destruct (py_all_loops_ok E) as (L & E1 & E2). rewrite E1. cbn [bind].
  set (F := found E (keys (build_graph E))) in *.
  assert (HC : Forall (cycle E) F) by (apply Forall_forall; intros l; apply found_cycle).
  assert (HN : Forall (fun l => l <> []) F).
  { eapply Forall_impl; [|exact HC]. intros l (_ & x & l' & -> & _). discriminate. }
  assert (HD : Forall (fun l => NoDup l) F) by (eapply Forall_impl; [|exact HC]; intros l (X & _); exact X).
  eexists; split; [reflexivity|]. rewrite keep_loops_kept by auto.
  pose proof (py_kept L) as P. rewrite <- E2 in HD, HC, HN |- *.
  pose proof (kept_somes L [] HD) as KS. cbn [map] in KS. rewrite KS in P.
  assert (IK : incl (kept_of (fun _ => false) covers [] (somes L)) (somes L)).
  { generalize (@nil (list nat)) as acc. generalize (somes L) as M. clear. induction M as [|m M IH]; intros acc x I; [exact I|].
    cbn [kept_of orb] in I. destruct (existsb _ acc); [right; eapply IH; eauto|]. destruct I as [->|I]; [now left|right; eapply IH; eauto]. }
  set (Kp := kept_of _ covers [] (somes L)) in *. set (idx := filter _ _) in P |- *. clearbody idx.
  split.
  - clear - P IK HN. revert idx P. induction Kp as [|k Kp IH]; intros idx P; destruct idx as [|i idx]; try discriminate; [reflexivity|].
    cbn [map] in P. injection P as P1 P2. cbn [mapM map]. rewrite P1.
    assert (Nk : k <> []) by (rewrite Forall_forall in HN; apply HN, IK; now left).
    destruct k as [|x k]; [congruence|]. cbn [py_rotate bind].
    rewrite (IH (fun y Hy => IK y (or_intror Hy)) idx P2). reflexivity.
  - apply Forall_forall. intros l I. rewrite Forall_forall in HC. apply HC, IK, I.
Qed.

(** ** Hard decision *)
Lemma py_hard_sel thr q : is_nan thr = false -> neqb (py_hard thr (Fin q)) n1 = negb (ngt (Fin q) thr).
Proof.
  intros Hn. unfold py_hard, mask_below, mask_above.
  assert (X : nleb (Fin q) thr = negb (ngt (Fin q) thr)).
  { unfold nleb, ngt. destruct thr; cbn in *; auto; try discriminate. }
  rewrite X. destruct (ngt (Fin q) thr); reflexivity.
Qed.
Lemma filter_combine {A B} (f : A -> bool) (da : A) (db : B) : forall (a : list A) (b : list B), length a = length b ->
  map snd (filter (fun x => f (fst x)) (combine a b))
  = map (fun i => nth i b db) (filter (fun i => f (nth i a da)) (seq 0 (length a))).
Proof.
  induction a as [|x a IH]; intros [|y b] L; try discriminate; [reflexivity|].
  cbn [combine length]. cbn [seq filter fst]. change (nth 0 (x :: a) da) with x. rewrite <- seq_shift.
  assert (Q : map (fun i => nth i (y :: b) db) (filter (fun i => f (nth i (x :: a) da)) (map Datatypes.S (seq 0 (length a))))
            = map (fun i => nth i b db) (filter (fun i => f (nth i a da)) (seq 0 (length a)))).
  { clear. induction (seq 0 (length a)) as [|s l IHl]; [reflexivity|]. cbn [map filter].
    change (nth (Datatypes.S s) (x :: a) da) with (nth s a da).
    destruct (f (nth s a da)); cbn [map]; rewrite IHl; reflexivity. }
  destruct (f x); cbn [map snd]; rewrite Q, IH by (cbn in L; lia); reflexivity.
Qed.
Lemma np_mask_ok {A} thr (y : list Qc) (a : list A) (dd : A) : is_nan thr = false -> length y = length a ->
  np_mask (map (py_hard thr) (map Fin y)) a = Some (map (fun i => nth i a dd) (chosen thr (map Fin y))).
Proof.
  intros Hn L. unfold np_mask. rewrite !map_length, L, Nat.eqb_refl. f_equal.
  rewrite (filter_combine (fun v => neqb v n1) n0 dd) by (rewrite !map_length; exact L).
  f_equal. unfold chosen. rewrite !map_length. apply filter_ext_in. intros i I. apply in_seq in I.
  rewrite !map_map, (nth_indep _ n0 (py_hard thr (Fin 0))), (nth_indep _ n0 (Fin 0)) by (rewrite map_length; lia).
  rewrite (map_nth (fun x => py_hard thr (Fin x))), (map_nth Fin). apply py_hard_sel, Hn.
Qed.

(** ** Constraints of the subtours *)
Lemma rot1_rotation l : l <> [] -> rotation l (rot1 l).
Proof.
  intros N. exists (removelast l), [last l 0]. split; [apply last_snoc; exact N|reflexivity].
Qed.
Lemma rot1_in l x : l <> [] -> (In x (rot1 l) <-> In x l).
Proof.
  intros N. pose proof (rotation_perm _ _ (rot1_rotation l N)) as P. split; apply Permutation_in; auto using Permutation_sym.
Qed.
Lemma rot1_length l : l <> [] -> length (rot1 l) = length l.
Proof. intros N. symmetry. apply Permutation_length, rotation_perm, rot1_rotation, N. Qed.

Lemma in_permutations2 l u v : u <> v -> (In (u, v) (py_permutations2 l) <-> In u l /\ In v l).
Proof.
  intros N. unfold py_permutations2. rewrite in_concat. split.
  - intros (r & I & J). apply in_map_iff in I as (i & <- & I). apply in_map_iff in J as (j & Q & J).
    apply filter_In in J as (J & _). apply in_seq in I, J. injection Q as <- <-. split; apply nth_In; lia.
  - intros (I & J). apply In_nth with (d := 0) in I as (i & Hi & Ei). apply In_nth with (d := 0) in J as (j & Hj & Ej).
    eexists. split; [apply in_map_iff; exists i; split; [reflexivity|apply in_seq; lia]|].
    apply in_map_iff. exists j. split; [congruence|]. apply filter_In. split; [apply in_seq; lia|].
    destruct (Nat.eqb_spec j i) as [->|]; auto. congruence.
Qed.
Lemma py_delta_same E l : (forall u v, In (u, v) E -> u <> v) -> l <> [] -> py_delta E (rot1 l) = delta_S E l.
Proof.
  intros NS Nl. unfold py_delta, delta_S. rewrite (indices_spec _ E (0, 0)). apply filter_ext_in. intros i I. apply in_seq in I.
  destruct (nth i E (0, 0)) as (u, v) eqn:Q. cbn [fst snd].
  assert (Iu : In (u, v) E) by (rewrite <- Q; apply nth_In; lia). pose proof (NS u v Iu) as Nuv.
  apply eq_true_iff_eq. rewrite !andb_true_iff, !negb_true_iff, existsb_in, rot1_in, mem_in, mem_nin by auto.
  assert (P : existsb (fun q => (fst q =? u) && (snd q =? v)) (py_permutations2 (rot1 l)) = true <-> In u l /\ In v l).
  { rewrite existsb_exists. rewrite <- (rot1_in l u), <- (rot1_in l v), <- in_permutations2 by auto. split.
    - intros ((a, b) & J & X). cbn [fst snd] in X. apply andb_true_iff in X as (X & Y).
      apply Nat.eqb_eq in X, Y. subst. exact J.
    - intros J. exists (u, v). split; auto. cbn. now rewrite !Nat.eqb_refl. }
  destruct (existsb _ _); split.
  - intros (X & _). discriminate.
  - intros (X & Y). exfalso. apply Y. apply P. reflexivity.
  - intros (_ & X). split; auto. intros Y. assert (false = true) by (apply P; auto). discriminate.
  - intros (X & Y). auto.
Qed.

Lemma py_pairs_cycle E l : cycle E l -> Forall (fun pr => In pr E) (py_pairs l).
Proof.
  intros (_ & x & l' & -> & P). unfold py_pairs. apply Forall_app. split.
  - apply path_in_prefix in P. clear -P. cbn [tl]. revert x P. induction l' as [|y l' IH]; intros x P; [constructor|].
    apply path_in_cons in P as (P1 & P2). cbn [combine]. constructor; auto. apply (IH y P2).
  - constructor; [|constructor]. cbn [hd]. apply P.
    rewrite (last_snoc (x :: l') 0) at 1 by discriminate. rewrite <- app_assoc. cbn [app]. exists (removelast (x :: l')), []. reflexivity.
Qed.
Lemma py_index_ok E pr : In pr E -> exists i, py_index E pr = Some i /\ i < length E.
Proof.
  intros I. unfold py_index. destruct pr as (u, v). cbn [fst snd]. rewrite (indices_spec _ E (0, 0)).
  apply In_nth with (d := (0, 0)) in I as (i & Hi & Ei).
  assert (J : In i (filter (fun i => (fst (nth i E (0, 0)) =? u) && (snd (nth i E (0, 0)) =? v)) (seq 0 (length E)))).
  { apply filter_In. split; [apply in_seq; lia|]. rewrite Ei. cbn. now rewrite !Nat.eqb_refl. }
  destruct (filter _ _) as [|j L] eqn:Q; [destruct J|]. exists j. split; [reflexivity|].
  assert (K : In j (j :: L)) by now left. rewrite <- Q in K. apply filter_In in K as (K & _). apply in_seq in K. lia.
Qed.
Lemma py_indices_ok E l : cycle E l -> exists idx, py_indices E l = Some idx /\ Forall (fun i => i < length E) idx.
Proof.
  intros HC. apply py_pairs_cycle in HC. unfold py_indices.
  assert (K : forall L, Forall (fun pr => In pr E) L -> exists idx, mapM (py_index E) L = Some idx /\ Forall (fun i => i < length E) idx).
  { induction L as [|pr L IH]; intros F; [exists []; cbn; auto|]. inversion F as [|? ? I F']; subst.
    destruct (py_index_ok E pr I) as (i & E1 & Hi). destruct (IH F') as (idx & E2 & Hx).
    exists (i :: idx). cbn [mapM]. rewrite E1, E2. cbn [bind]. auto. }
  apply K. apply Forall_forall. intros pr I. apply filter_In in I as (I & _). rewrite Forall_forall in HC. auto.
Qed.
Lemma np_take_some {A} (v : list A) idx : Forall (fun i => i < length v) idx -> exists r, np_take v idx = Some r.
Proof.
  unfold np_take. induction 1 as [|i idx Hi F IH]; [eexists; reflexivity|]. destruct IH as (r & Er).
  cbn [mapM]. rewrite Er. unfold get. destruct (nth_error v i) eqn:Q; [eexists; reflexivity|]. apply nth_error_None in Q. lia.
Qed.

(** Python's list of constraints *)
Definition py_add (ds : list (list nat)) (dl : list nat) : list (list nat) :=
  if existsb (fun d' => list_eqb d' dl) ds then ds else ds ++ [dl].
Definition py_add_all (E : list (nat * nat)) (loops : list (list nat)) (ds : list (list nat)) : list (list nat) :=
  fold_left (fun ds l => py_add ds (delta_S E l)) loops ds.
Lemma py_add_keeps ds dl x : In x ds -> In x (py_add ds dl).
Proof. unfold py_add. destruct (existsb _ ds); [auto|]. intros I. apply in_or_app. auto. Qed.
Lemma py_add_in ds dl : In dl (py_add ds dl).
Proof.
  unfold py_add. destruct (existsb (fun d' => list_eqb d' dl) ds) eqn:Q; [apply existsb_list_in, Q|apply in_or_app; right; now left].
Qed.
Lemma py_add_all_keeps E loops : forall ds x, In x ds -> In x (py_add_all E loops ds).
Proof. induction loops as [|l loops IH]; intros ds x I; [exact I|]. cbn. apply IH, py_add_keeps, I. Qed.
Lemma py_add_all_in E loops : forall ds l, In l loops -> In (delta_S E l) (py_add_all E loops ds).
Proof.
  induction loops as [|l0 loops IH]; intros ds l []; [subst; cbn; apply py_add_all_keeps, py_add_in|cbn; apply IH; auto].
Qed.
Lemma py_add_all_app E loops : forall ds, exists new, py_add_all E loops ds = ds ++ new.
Proof.
  induction loops as [|l loops IH]; intros ds; [exists []; cbn; now rewrite app_nil_r|]. cbn.
  destruct (IH (py_add ds (delta_S E l))) as (new & Q). fold (py_add_all E loops (py_add ds (delta_S E l))). rewrite Q.
  unfold py_add. destruct (existsb _ ds); [eauto|]. rewrite <- app_assoc. eauto.
Qed.
Lemma py_add_all_same E loops : forall ds, (forall l, In l loops -> delta_S E l <> []) ->
  py_add_all E loops ds = add_all E loops ds.
Proof.
  induction loops as [|l loops IH]; intros ds H; [reflexivity|]. cbn.
  assert (Q : py_add ds (delta_S E l) = add_delta ds (delta_S E l)).
  { rewrite add_delta_eq. unfold py_add. assert (N := H l (or_introl eq_refl)).
    destruct (delta_S E l); [congruence|]. reflexivity. }
  rewrite Q. apply IH. intros; apply H; now right.
Qed.

(** ** Analysis *)
Record same_analysis (ps : pt_state) (a : tsp_an) : Prop := {
  sa_deltas : pt_deltas ps = a_deltas a;
  sa_flag : pt_tour_flag ps = a_tour_flag a;
  sa_sat : pt_satisfied ps = a_satisfied a;
  sa_loops : pt_loops ps = map rot1 (a_paths a);
  sa_tour : a_tour_flag a = true -> exists l, l <> [] /\ a_tour a = l ++ [hd 0 l] /\ pt_tour ps = last l 0 :: l }.

Lemma analysis_same p d m intr hds sel cost tour a :
  p_ord p = (fun l => l) -> p_n p = pd_n d -> tsp_edges (p_in p) = pd_edges d ->
  (forall u v, In (u, v) (pd_edges d) -> u <> v) -> incl sel (pd_edges d) -> length hds = length (pd_edges d) ->
  a_tour_flag a = false -> a_satisfied a = false ->
  exists ps a', py_analysis d m intr (hds, sel, cost) (a_deltas a) tour false false = Some ps /\
    analyse p sel a = Some a' /\
    pt_msgs_of ps = m /\ pt_intr ps = intr /\ pt_hd ps = hds /\ pt_selected ps = sel /\ pt_cost ps = cost /\
    (exists new, pt_deltas ps = a_deltas a ++ new) /\
    (~ In [] (pt_deltas ps) -> same_analysis ps a') /\
    (Forall (fun l => delta_S (pd_edges d) l <> []) (a_paths a') \/ a_tour_flag a' = true -> same_analysis ps a').
Proof.
  intros Po Pn PE NS IS LH Fa Sa. destruct (closed_loops_same sel) as (loops & L1 & L2 & L3).
  unfold py_analysis, analyse. rewrite Po, L1, L2. cbn [bind].
  destruct loops as [|first rest].
  - cbn [map]. eexists _, _. split; [reflexivity|]. split; [reflexivity|]. cbn.
    do 5 (split; [reflexivity|]). split; [exists []; now rewrite app_nil_r|].
    assert (G : same_analysis {| pt_msgs_of := m; pt_intr := intr; pt_hd := hds; pt_selected := sel; pt_cost := cost; pt_loops := [];
       pt_deltas := a_deltas a; pt_tour := tour; pt_tour_flag := false; pt_satisfied := false |}
       {| a_deltas := a_deltas a; a_tour := a_tour a; a_tour_flag := a_tour_flag a; a_satisfied := a_satisfied a; a_paths := []; a_sizes := [];
       a_nocons := a_nocons a + 1; a_nocons_flag := a_nocons_flag a || (p_max_count p <? Z.of_nat (a_nocons a + 1))%Z |}).
    { constructor; cbn; auto. congruence. }
    auto.
  - assert (NF : first <> []) by (inversion L3; subst; eapply cycle_nonempty; eauto).
    assert (NL : Forall (fun l => l <> []) (first :: rest)) by (eapply Forall_impl; [|exact L3]; intros; eapply cycle_nonempty; eauto).
    cbn [map]. change (rot1 first :: map rot1 rest) with (map rot1 (first :: rest)).
    rewrite (rot1_length first NF), map_length, Pn.
    destruct ((length (first :: rest) =? 1) && (length first =? pd_n d)) eqn:T.
    + destruct first as [|x first]; [congruence|]. unfold rot1 at 1. unfold get at 1 2. cbn [nth_error bind].
      eexists _, _. split; [reflexivity|]. split; [reflexivity|]. cbn [pt_msgs_of pt_intr pt_hd pt_selected pt_cost pt_deltas a_tour_flag a_paths].
      do 5 (split; [reflexivity|]). split; [exists []; now rewrite app_nil_r|].
      match goal with |- (_ -> same_analysis ?P ?A) /\ _ => assert (G : same_analysis P A) end.
      { constructor; cbn [pt_deltas pt_tour_flag pt_satisfied pt_loops a_deltas a_tour_flag a_satisfied a_paths a_tour pt_tour]; auto.
        intros _. exists (x :: first). split; [discriminate|]. split; [reflexivity|].
        unfold rot1. cbn [app]. f_equal. symmetry. apply last_snoc. discriminate. }
      auto.
    + assert (K : forall ls ds, Forall (cycle sel) ls -> foldM (fun ds l =>
          idx <- py_indices (pd_edges d) l ;;
          _ <- np_take hds idx ;;
          let dl := py_delta (pd_edges d) l in
          Some (if existsb (fun d' => list_eqb d' dl) ds then ds else ds ++ [dl])) (map rot1 ls) ds = Some (py_add_all (pd_edges d) ls ds)).
      { induction ls as [|l ls IH]; intros ds F; [reflexivity|]. inversion F as [|? ? Cl F']; subst.
        assert (Nl : l <> []) by (eapply cycle_nonempty; eauto).
        assert (Cr : cycle (pd_edges d) (rot1 l)).
        { apply (rotation_cycle _ l); [apply rot1_rotation, Nl|]. destruct Cl as (A & x & l' & B & P).
          split; auto. exists x, l'. split; auto. eapply path_in_incl; eauto. }
        destruct (py_indices_ok _ _ Cr) as (idx & X1 & X2). rewrite <- LH in X2. destruct (np_take_some hds idx X2) as (r & X3).
        cbn [map foldM]. rewrite X1. cbn [bind]. rewrite X3. cbn [bind]. rewrite (py_delta_same _ l NS Nl).
        apply IH, F'. }
      rewrite K by exact L3. cbn [bind]. eexists _, _. split; [reflexivity|]. split; [reflexivity|].
      cbn [pt_msgs_of pt_intr pt_hd pt_selected pt_cost pt_deltas a_tour_flag a_paths].
      do 5 (split; [reflexivity|]). split; [apply py_add_all_app|].
      match goal with |- (_ -> same_analysis ?P ?A) /\ _ =>
        assert (G : Forall (fun l => delta_S (pd_edges d) l <> []) (first :: rest) -> same_analysis P A) end.
      { intros F. constructor; cbn [pt_deltas pt_tour_flag pt_satisfied pt_loops a_deltas a_tour_flag a_satisfied a_paths a_tour pt_tour]; auto.
        - rewrite PE. apply py_add_all_same. rewrite Forall_forall in F. exact F.
        - congruence. }
      split; [|intros [X|X]; [auto|congruence]]. intros NI. apply G. apply Forall_forall. intros l I Q. apply NI. rewrite <- Q.
      apply py_add_all_in, I.
Qed.

(** ** Messages *)
Section Msgs.
Variable p : tsp_params.
Variable o : pt_options.
Let n := p_n p.
Let e := p_e p.
Let E := tsp_edges (p_in p).
Variables (al : Qc) (cost : list Qc) (C CM : list (list Qc)).
Hypothesis Hn : 3 <= n.
Hypothesis HE : complete n E.
Hypothesis He : length E = e.
Hypothesis Hal : p_alpha p = Fin al.
Hypothesis Hcost : tsp_cost_edge (p_in p) = map Fin cost.
Hypothesis Lcost : length cost = e.
Hypothesis HC : tsp_degree_cost (p_in p) = inj C.
Hypothesis SC : shape e n C.
Hypothesis OC : off_zero n E C.
Hypothesis HCM : tsp_cost_matrix (p_in p) = inj CM.
Hypothesis SCM : shape n n CM.
Hypothesis Ho1 : po_iters o = p_iters p.
Hypothesis Ho2 : po_aug o = p_aug p.
Hypothesis Ho3 : po_reset o = p_reset p.
Hypothesis Ho4 : po_filt o = p_filt p.
Hypothesis Ho5 : po_alpha o = p_alpha p.
Hypothesis Ho6 : po_thr o = p_thr p.
Hypothesis Halpha : p_filt p = true -> al <> 0%Qc.
Let d := {| pd_n := n; pd_cm := inj CM; pd_edges := E; pd_cost := map Fin cost; pd_degree_cost := inj C |}.

Lemma num_edges : py_num_edges n = length E.
Proof. unfold py_num_edges. symmetry. exact (complete_length n E HE). Qed.

Lemma deg_unique V D1 D2 : shape e n D1 -> shape e n D2 -> deg_eq n E V D1 -> deg_eq n E V D2 ->
  off_zero n E D1 -> off_zero n E D2 -> D1 = D2.
Proof.
  intros S1 S2 Q1 Q2 O1 O2. apply (qmat_ext e n); auto. intros i w Hi Hw.
  destruct (nth_error E i) as [(u, v)|] eqn:G; [|apply nth_error_None in G; lia].
  destruct (Q1 w Hw) as (A1 & B1). destruct (Q2 w Hw) as (A2 & B2).
  destruct (Nat.eq_dec w u) as [->|Nu].
  { assert (I : In i (from_node E u)) by (apply (in_from n E Hn); exists v; exact G).
    apply In_nth_error in I as (pos & I). pose proof (minsum_message_unique _ _ _ _ _ (A1 pos i I) (A2 pos i I)) as X.
    injection X; auto. }
  destruct (Nat.eq_dec w v) as [->|Nv].
  { assert (I : In i (into_node E v)) by (apply (in_into n E Hn); exists u; exact G).
    apply In_nth_error in I as (pos & I). pose proof (minsum_message_unique _ _ _ _ _ (B1 pos i I) (B2 pos i I)) as X.
    injection X; auto. }
  rewrite (O1 i u v w), (O2 i u v w); auto.
Qed.
Lemma zeros_inj a b : exists Z, np_zeros a b = inj Z /\ shape a b Z /\ forall i j, qat Z i j = 0%Qc.
Proof.
  exists (repeat (repeat 0%Qc b) a). split.
  - unfold np_zeros, inj. rewrite !map_repeat. reflexivity.
  - split; [apply shape_repeat|]. intros i j. unfold qat.
    destruct (Nat.lt_ge_cases i a) as [H|H].
    + rewrite (nth_indep _ [] (repeat 0%Qc b)), nth_repeat by (rewrite repeat_length; auto). apply nth_repeat.
    + rewrite (nth_overflow (repeat _ a)) by (rewrite repeat_length; auto). destruct j; reflexivity.
Qed.
Lemma degree_both V D0 : shape e n V -> shape e n D0 -> off_zero n E D0 ->
  exists Dg, degree_update n e E (inj V) (inj D0) = Some (inj Dg) /\
    py_degree_update n e E (inj V) = Some (inj Dg) /\ shape e n Dg /\ off_zero n E Dg.
Proof.
  intros SV SD OD. pose proof He as He'. unfold E in He'. rewrite <- He' in SV, SD |- *. fold E in SV, SD |- *.
  destruct (degree_sem n E Hn HE V D0 SV SD OD) as (Dg & E1 & S1 & Q1 & O1).
  destruct (zeros_inj (length E) n) as (Z & EZ & SZ & HZ).
  destruct (degree_sem n E Hn HE V Z SV SZ) as (D2 & E2 & S2 & Q2 & O2).
  { intros i u v w _ _ _ _. apply HZ. }
  destruct (degree_same (length E) n V E eq_refl SV (complete_no_self n E HE)) as (R & E3 & E4 & _).
  { intros u Hu. split; [apply (from_two n E Hn HE u Hu)|apply (into_two n E Hn HE u Hu)]. }
  rewrite EZ, E2 in E4. injection E4 as <-.
  assert (Dg = D2) as -> by (apply (deg_unique V); rewrite <- ?He; auto).
  exists D2. auto.
Qed.

Definition deg_rel (i : nat) (pm : pt_msgs) (m : tsp_msgs) : Prop :=
  pm_e2d pm = m_e2d m /\ off_zero n E (unm (m_e2d m)) /\ off_zero n E (unm (m_deg_dummy m)) /\
  (on (p_filt p) al = true -> 0 < i -> pm_deg_old pm = Some (m_deg_old m) /\ off_zero n E (unm (m_deg_old m))) /\
  (0 < i -> pm_deg pm = Some (m_deg m) /\ off_zero n E (unm (m_deg m))).

Lemma off_filter iter D O Q : off_zero n E D -> (on (p_filt p) al = true -> 0 < iter -> off_zero n E O) ->
  (forall i j, i < e -> j < n -> qat Q i j = blend1 (p_filt p) al iter (qat D i j) (qat O i j)) -> off_zero n E Q.
Proof.
  intros OD OO H i u v w G Hw Nu Nv. assert (Hi : i < e) by (rewrite <- He; apply nth_error_Some; congruence).
  rewrite H by auto. rewrite (OD i u v w) by auto. unfold blend1. destruct (on (p_filt p) al); auto.
  destruct (Nat.eqb_spec iter 0) as [->|Ni]; [ring|]. rewrite (OO eq_refl ltac:(lia) i u v w) by auto. ring.
Qed.

(** degree constraints and their filtering *)
Lemma deg_part i pm m : finm e n (m_e2d m) -> finm e n (m_deg_dummy m) -> finm e n (m_deg_old m) -> finm e n (m_deg m) ->
  deg_rel i pm m ->
  exists Dg Q O' pold,
    degree_update n e E (m_e2d m) (m_deg_dummy m) = Some (inj Dg) /\
    py_degree_update n e E (pm_e2d pm) = Some (inj Dg) /\
    process_filtering (p_filt p) (p_alpha p) i e (inj Dg) (m_deg_old m) (m_deg m) = Some (inj Q, inj O') /\
    py_filtering (po_filt o) (po_alpha o) i (inj Dg) (pm_deg_old pm) = Some (inj Q, pold) /\
    shape e n Dg /\ shape e n Q /\ shape e n O' /\ off_zero n E Dg /\ off_zero n E Q /\
    (on (p_filt p) al = true -> pold = Some (inj O') /\ off_zero n E O').
Proof.
  intros F1 F2 F3 F4 (R1 & R2 & R3 & R4 & R5).
  apply finm_unm in F1 as (E1 & S1). apply finm_unm in F2 as (E2 & S2). apply finm_unm in F3 as (E3 & S3).
  apply finm_unm in F4 as (E4 & S4).
  destruct (degree_both (unm (m_e2d m)) (unm (m_deg_dummy m)) S1 S2 R3) as (Dg & A1 & A2 & A3 & A4).
  destruct (filtering_same (p_filt p) al i e n Dg (pm_deg_old pm) (unm (m_deg_old m)) (m_deg m))
    as (Q & O' & pold & B1 & B2 & B3 & B4 & B5 & B6 & B7); auto.
  { rewrite E4. apply shape_inj; auto. }
  { intros X Y. rewrite <- E3. apply R4; auto. }
  assert (OQ : off_zero n E Q).
  { apply (off_filter i Dg (unm (m_deg_old m))); auto. intros X Y. apply R4; auto. }
  rewrite <- E1, <- E2 in A1. rewrite <- E1 in A2. rewrite <- E3 in B2.
  exists Dg, Q, O', pold. rewrite R1. split; [exact A1|]. split; [exact A2|].
  rewrite Ho4, Ho5, Hal. split; [exact B2|]. split; [exact B1|]. repeat (split; [assumption|]).
  intros X. destruct (B6 X) as (Y & ->). auto.
Qed.

(** *** First stage *)
Definition relaxed_rel (i : nat) (pm : pt_msgs) (m : tsp_msgs) : Prop :=
  fin_msgs p 0 m /\ deg_rel i pm m /\ pm_sub pm = [].

Lemma relaxed_step_same i pm m : relaxed_rel i pm m ->
  exists pm' m', py_relaxed_step o d pm i = Some pm' /\ relaxed_step p m i = Some m' /\ relaxed_rel (i + 1) pm' m'.
Proof.
  intros ((F1 & F2 & F3 & F4 & F5 & F6 & F7) & R & Sb).
  destruct (deg_part i pm m F1 F2 F3 F4 R) as (Dg & Q & O' & pold & A1 & A2 & A3 & A4 & A5 & A6 & A7 & A8 & A9 & A10).
  destruct (relaxed_same e n Q C E (m_e2d m) He A6 SC) as (V & B1 & B2 & B3).
  { destruct F1 as (? & ? & ->). apply shape_inj; auto. } { exact (complete_edges_in n E HE). } { exact (complete_no_self n E HE). }
  destruct (edge_to_degree_relaxed_ok e n Q C E (m_e2d m) He A6 SC) as (V' & B2' & B3' & B4).
  { destruct F1 as (? & ? & ->). apply shape_inj; auto. } { exact (complete_edges_in n E HE). } { exact (complete_no_self n E HE). }
  rewrite B2 in B2'. injection B2' as ->.
  unfold py_relaxed_step, relaxed_step. fold n e E. cbn [d pd_n pd_edges pd_degree_cost].
  rewrite num_edges, He, A1, A2. cbn [bind]. rewrite A3, A4. cbn [bind]. rewrite HC, B1, B2. cbn [bind].
  eexists _, _. split; [reflexivity|]. split; [reflexivity|]. split; [|split].
  - unfold fin_msgs. fold n e. cbn [m_e2d m_deg_dummy m_deg_old m_deg m_sub m_sub_dummy m_sub_old].
    split; [exists V'; auto|]. split; [exists Dg; auto|]. split; [exists O'; auto|]. split; [exists Q; auto|]. auto.
  - unfold deg_rel. cbn [m_e2d m_deg_dummy m_deg_old m_deg pm_e2d pm_deg pm_deg_old]. rewrite !unm_inj.
    split; [reflexivity|]. split; [|repeat split; auto; apply A10; auto].
    intros j u v w G Hw Nu Nv. rewrite (B4 j u v w) by auto. unfold swap.
    destruct (Nat.eqb_spec w u); [congruence|]. destruct (Nat.eqb_spec w v); [congruence|].
    rewrite (A9 j u v w), (OC j u v w) by auto. ring.
  - exact Sb.
Qed.

(** *** Augmented rounds *)
Section Deltas.
Variable deltas : list (list nat).
Hypothesis Hd : Forall (good_delta E) deltas.
Hypothesis Hne : deltas <> [].
Let S := length deltas.

Lemma sub_unique ES (B1 B2 : list (list Qc)) : shape S e B1 -> shape S e B2 -> sub_eq deltas ES B1 -> sub_eq deltas ES B2 ->
  sub_off p deltas B1 -> sub_off p deltas B2 -> B1 = B2.
Proof.
  intros S1 S2 Q1 Q2 O1 O2. apply (qmat_ext S e); auto. intros s i Hs Hi.
  destruct (nth_error deltas s) as [dl|] eqn:G; [|apply nth_error_None in G; unfold S in Hs; lia].
  destruct (in_dec Nat.eq_dec i dl) as [I|NI]; [|rewrite (O1 s dl i), (O2 s dl i) by auto; reflexivity].
  apply In_nth_error in I as (pos & I).
  pose proof (minsum_message_unique _ _ _ _ _ (Q1 s dl pos i G I) (Q2 s dl pos i G I)) as X. injection X; auto.
Qed.
Lemma sub_sem ES B0 : shape S e ES -> shape S e B0 -> sub_off p deltas B0 ->
  exists SD, subtour_update e deltas (inj ES) (inj B0) = Some (inj SD) /\ shape S e SD /\ sub_eq deltas ES SD /\ sub_off p deltas SD.
Proof.
  intros S1 S2 O. pose proof He as He'. unfold E in He'.
  destruct (subtour_fin n E Hn deltas (inj ES) (inj B0) Hd) as (sd & E4 & (SDm & SSD & ->));
    [exists ES; rewrite He; auto|exists B0; rewrite He; auto|].
  rewrite He in E4, SSD.
  destruct (subtour_update_ok e S ES deltas (inj B0)) as (sd' & E4' & _ & H6 & H7); auto using shape_inj.
  { apply Forall_forall; intros dl Id. rewrite Forall_forall in Hd. destruct (Hd dl Id) as (X1 & X2 & X3).
    split; [intros ->; cbn in X1; lia|]. rewrite He in X3. auto. }
  rewrite E4 in E4'. injection E4' as <-. exists SDm. split; auto. split; auto.
  assert (RI : forall s dl j, nth_error deltas s = Some dl -> In j dl -> s < S /\ j < e).
  { intros s dl j G I. split; [apply nth_error_Some; congruence|]. rewrite Forall_forall in Hd.
    destruct (Hd dl (nth_error_In _ _ G)) as (_ & _ & X). rewrite Forall_forall in X. rewrite He in X. apply X, I. }
  split.
  - intros s dl pos i G Gi. destruct (H6 s dl pos i G Gi) as (v & Gv & Mv).
    destruct (RI s dl i G (nth_error_In _ _ Gi)). rewrite (get2_inj S e) in Gv by auto. injection Gv as <-. exact Mv.
  - intros s dl i G Hi NI. assert (Hs : s < S) by (apply nth_error_Some; congruence).
    pose proof (H7 s dl i G NI) as X. rewrite !(get2_inj S e) in X by auto. injection X as ->. apply (O s dl i); auto.
Qed.
Lemma subtour_both ES B0 : shape S e ES -> shape S e B0 -> sub_off p deltas B0 ->
  exists SD, subtour_update e deltas (inj ES) (inj B0) = Some (inj SD) /\
    py_subtour_update e deltas (inj ES) = Some (inj SD) /\ shape S e SD /\ sub_off p deltas SD.
Proof.
  intros S1 S2 O. destruct (sub_sem ES B0 S1 S2 O) as (SD & A1 & A2 & A3 & A4).
  destruct (zeros_inj S e) as (Z & EZ & SZ & HZ).
  destruct (sub_sem ES Z S1 SZ) as (SD2 & B1 & B2 & B3 & B4); [intros s dl i _ _ _; apply HZ|].
  destruct (subtour_same e S ES deltas eq_refl S1) as (R & C1 & C2 & _).
  { eapply Forall_impl; [|exact Hd]. intros dl (X1 & X2 & X3). rewrite He in X3. auto. }
  rewrite EZ, B1 in C2. injection C2 as <-.
  assert (SD = SD2) as -> by (apply (sub_unique ES); auto). exists SD2. auto.
Qed.

Definition sub_rel (i : nat) (pm : pt_msgs) (m : tsp_msgs) : Prop :=
  pm_sub pm = m_sub m /\ sub_off p deltas (unm (m_sub_dummy m)) /\
     (on (p_filt p) al = true -> 0 < i -> exists O, pm_sub_old pm = Some (inj O) /\ shape S e O /\
    forall s j, s < S -> j < e -> qat O s j = qat (unm (m_sub_old m)) s j).
Definition augmented_rel (i : nat) (pm : pt_msgs) (m : tsp_msgs) : Prop :=
  fin_msgs p S m /\ old_ok p deltas m /\ deg_rel i pm m /\ sub_rel i pm m.

Lemma e2d_both Q B V : shape e n Q -> off_zero n E Q -> shape S e B -> shape e n V -> off_zero n E V ->
  exists V', edge_to_degree_augmented e (inj Q) (inj B) E (inj C) (inj V) = Some (inj V') /\
    py_edge_to_degree_augmented E (inj C) (inj Q) (inj B) = Some (inj V') /\ shape e n V' /\ off_zero n E V'.
Proof.
  intros SQ OQ SB SV OV.
  pose proof (complete_edges_in n E HE) as EI. pose proof (complete_no_self n E HE) as NS.
  assert (S0 : S <> 0) by (unfold S; destruct deltas; [congruence|discriminate]).
  destruct (edge_to_degree_augmented_ok e n S Q B C E (inj V)) as (X & E1 & S1 & H1 & H2); auto using shape_inj.
  destruct (augmented_same e n S Q B C E) as (R & E2 & E3 & S3); auto.
  destruct (edge_to_degree_augmented_ok e n S Q B C E (np_zeros e n)) as (Y & E4 & S4 & H3 & H4); auto.
  { apply shape_repeat. }
  rewrite E3 in E4. injection E4 as ->.
  assert (XY : X = Y).
  { apply (shape_ext e n); auto. intros i w Hi Hw.
    destruct (nth_error E i) as [(u, v)|] eqn:G; [|apply nth_error_None in G; lia].
    destruct (H1 i u v G) as (X1 & X2). destruct (H3 i u v G) as (Y1 & Y2).
    destruct (Nat.eq_dec w u) as [->|Nu]; [congruence|]. destruct (Nat.eq_dec w v) as [->|Nv]; [congruence|].
    rewrite (H2 i u v w), (H4 i u v w) by auto. rewrite (get2_inj e n), (OV i u v w) by auto.
    unfold np_zeros. rewrite get2_repeat by auto. reflexivity. }
  assert (F : finm e n X).
  { apply (finm_of e n); auto. intros i w Hi Hw.
    destruct (nth_error E i) as [(u, v)|] eqn:G; [|apply nth_error_None in G; lia].
    destruct (H1 i u v G) as (X1 & X2). destruct (Nat.eq_dec w u) as [->|Nu]; [eauto|]. destruct (Nat.eq_dec w v) as [->|Nv]; [eauto|].
    rewrite (H2 i u v w), (get2_inj e n) by auto. eauto. }
  destruct F as (V' & SV' & ->). subst Y. exists V'. split; auto. split; auto. split; auto.
  intros i u v w G Hw Nu Nv. assert (Hi : i < e) by (rewrite <- He; apply nth_error_Some; congruence).
  pose proof (H2 i u v w G Nu Nv) as X. rewrite !(get2_inj e n) in X by auto. injection X as ->. apply (OV i u v w); auto.
Qed.

Lemma augmented_step_same i pm m : augmented_rel i pm m ->
  exists pm' m', py_augmented_step o d deltas pm i = Some pm' /\ augmented_step p deltas m i = Some m' /\
    augmented_rel (i + 1) pm' m'.
Proof.
  intros ((F1 & F2 & F3 & F4 & F5 & F6 & _) & (N & LN & F7) & R & (T1 & T2 & T3)).
  destruct (deg_part i pm m F1 F2 F3 F4 R) as (Dg & Q & O' & pold & A1 & A2 & A3 & A4 & A5 & A6 & A7 & A8 & A9 & A10).
  destruct R as (R1 & R2 & R3 & R4 & R5).
  pose proof (complete_edges_in n E HE) as EI. pose proof (complete_no_self n E HE) as NS.
  assert (S0 : S <> 0) by (unfold S; destruct deltas; [congruence|discriminate]).
  apply finm_unm in F1 as (E1 & S1). apply finm_unm in F5 as (E5 & S5). apply finm_unm in F6 as (E6 & S6).
  apply finm_unm in F7 as (E7 & S7). fold n e in S1, S5, S6, S7. fold S in LN, S5, S6.
  assert (Rd : Forall (Forall (fun j => j < e)) deltas).
  { apply Forall_forall; intros dl Id. rewrite Forall_forall in Hd. rewrite <- He. apply (Hd dl Id). }
  destruct (edge_to_subtour_same e n S Q (unm (m_sub m)) cost E deltas) as (X & B1 & B2 & B3); auto.
  destruct (edge_to_subtour_ok e n S Q (unm (m_sub m)) cost E deltas) as (ES & B4 & B5 & _); auto.
  rewrite B2 in B4. injection B4 as ->. clear B3.
  destruct (subtour_both ES (unm (m_sub_dummy m)) B5 S6 T2) as (SD & C1 & C2 & C3 & C4).
  destruct (process_filtering_ok (p_filt p) al i S N e SD (unm (m_sub_old m)) (m_sub m)) as (B & P' & D1 & D2 & D3 & D4 & D5); auto.
  { rewrite E5. apply shape_inj; auto. }
  assert (PY : exists B' pso, py_filtering (p_filt p) (Fin al) i (inj SD) (pm_sub_old pm) = Some (inj B', pso) /\ shape S e B' /\
    (forall s j, s < S -> j < e -> qat B' s j = blend1 (p_filt p) al i (qat SD s j) (qat (unm (m_sub_old m)) s j)) /\
     (on (p_filt p) al = true -> pso = Some (inj B'))).
  { destruct (zeros_inj S e) as (Z & _ & SZ & _).
    destruct (on (p_filt p) al) eqn:On.
    - destruct (Nat.eq_dec i 0) as [->|Ni].
      + destruct (py_filtering_ok (p_filt p) al 0 S e SD (pm_sub_old pm) Z C3 SZ Halpha ltac:(intros; lia)) as (B' & pso & G1 & G2 & G3 & G4).
        exists B', pso. split; [exact G1|]. split; [exact G2|]. split; [|intros; apply G4; auto]. intros s j Hs Hj. rewrite G3 by auto. unfold blend1. rewrite On. reflexivity.
      + destruct (T3 eq_refl ltac:(lia)) as (OO & K1 & K2 & K3).
        destruct (py_filtering_ok (p_filt p) al i S e SD (pm_sub_old pm) OO) as (B' & pso & G1 & G2 & G3 & G4); auto.
        exists B', pso. split; [exact G1|]. split; [exact G2|]. split; [|intros; apply G4; auto]. intros s j Hs Hj. rewrite G3, K3 by auto. reflexivity.
    - destruct (py_filtering_ok (p_filt p) al i S e SD (pm_sub_old pm) Z C3 SZ Halpha ltac:(congruence)) as (B' & pso & G1 & G2 & G3 & G4).
      exists B', pso. split; [exact G1|]. split; [exact G2|]. split; [|congruence]. intros s j Hs Hj. rewrite G3 by auto. unfold blend1. rewrite On. reflexivity. }
  destruct PY as (B' & pso & G1 & G2 & G3 & G4).
  assert (B' = B) as -> by (apply (qmat_ext S e); auto; intros s j Hs Hj; rewrite G3, D4; auto).
  destruct (e2d_both Q B (unm (m_e2d m)) A6 A9 D2 S1 R2) as (V' & V1 & V2 & V3 & V4).
  rewrite <- E5 in B1, B2. rewrite <- E6 in C1. rewrite <- E7 in D1. rewrite <- E1 in V1.
  unfold py_augmented_step, augmented_step. fold n e E. cbn zeta. cbn [d pd_n pd_edges pd_degree_cost pd_cost].
  rewrite num_edges, He, A1, A2. cbn [bind]. rewrite A3, A4. cbn [bind]. rewrite Hcost, T1, B1, B2. cbn [bind].
  rewrite C1, C2. cbn [bind]. rewrite Ho4, Ho5, Hal. fold S. rewrite G1, D1. cbn [bind]. rewrite HC, V1, V2. cbn [bind].
  eexists _, _. split; [reflexivity|]. split; [reflexivity|]. split; [|split; [|split]].
  - unfold fin_msgs. fold n e. cbn [m_e2d m_deg_dummy m_deg_old m_deg m_sub m_sub_dummy m_sub_old].
    split; [exists V'; auto|]. split; [exists Dg; auto|]. split; [exists O'; auto|]. split; [exists Q; auto|].
    split; [exists B; auto|]. split; [exists SD; auto|]. exists N, P'. auto.
  - exists N. split; [exact LN|]. exists P'. auto.
  - unfold deg_rel. cbn [m_e2d m_deg_dummy m_deg_old m_deg pm_e2d pm_deg pm_deg_old]. rewrite !unm_inj.
    repeat split; auto; apply A10; auto.
  - unfold sub_rel. cbn [pm_sub m_sub m_sub_dummy pm_sub_old m_sub_old]. rewrite !unm_inj. split; auto. split; auto.
    intros X _. exists B. split; auto. split; auto. intros s j Hs Hj. symmetry. apply D5; auto.
Qed.
End Deltas.
(** *** Stages *)
Hypothesis Hthr : is_nan (p_thr p) = false.
Hypothesis Po : p_ord p = (fun l => l).
Hypothesis Hed : tsp_edge2degree (p_in p) = inj C.
Let Po' : forall l, Permutation (p_ord p l) l.
Proof. intros l. rewrite Po. apply Permutation_refl. Qed.

Lemma edges_differ : forall u v, In (u, v) E -> u <> v.
Proof. intros u v I. apply (proj2 HE) in I. tauto. Qed.

Lemma reset_off V : shape e n V -> off_zero n E V ->
  exists Q, reset_messages E (inj CM) (inj V) = Some (inj Q) /\ shape e n Q /\ off_zero n E Q.
Proof.
  intros SV OV. pose proof He as He'.
  destruct (reset_fin n E Hn HE (inj CM) (inj V)) as (r & Eo & (Q & SQ & ->)); [exists CM; auto|exists V; rewrite He; auto|].
  rewrite He in SQ.
  exists Q. split; [exact Eo|]. split; [exact SQ|]. revert Eo. unfold reset_messages.
  match goal with |- context [for_up 0 ?k0 ?st0 ?bd] =>
    destruct (for_up_ind 0 k0 st0 bd (fun i st => shape e n st /\
      forall j u v w, nth_error E j = Some (u, v) -> w < n -> w <> u -> w <> v -> get2 st j w = Some n0))
      as (st & Es & Ss & H) end.
  - lia.
  - split; [apply shape_inj; auto|]. intros j u v w G Hw Nu Nv.
    assert (Hj : j < e) by (rewrite <- He'; apply nth_error_Some; congruence).
    rewrite (get2_inj e n), (OV j u v w) by auto. reflexivity.
  - intros i st Hi (Ss & H). destruct (get_lt E i) as ((u & v) & G); [lia|]. rewrite G; cbn [bind].
    assert (Huv : u < n /\ v < n /\ u <> v) by (apply (proj2 HE); exact (nth_error_In _ _ G)).
    destruct Huv as (Hu & Hv & Nuv). assert (Hie : i < e) by lia.
    rewrite (get2_inj n n) by auto. cbn [bind].
    rewrite (set2_lt e n) by (auto; lia). cbn [bind].
    rewrite (set2_lt e n) by (try apply shape_upd2; auto; lia).
    eexists. split; [reflexivity|]. split; [apply shape_upd2, shape_upd2; auto|].
    intros j x y w Gj Hw Nx Ny.
    rewrite !(get2_upd2 e n) by (try apply shape_upd2; auto; lia).
    destruct (Nat.eqb_spec i j) as [<-|Nij]; cbn [andb]; [|eapply H; eauto].
    unfold get in G. rewrite G in Gj. injection Gj as <- <-.
    destruct (Nat.eqb_spec v w); [congruence|]. destruct (Nat.eqb_spec u w); [congruence|]. eapply H; eauto.
  - rewrite Es. intros X. injection X as ->. intros i u v w G Hw Nu Nv.
    assert (Hi : i < e) by (rewrite <- He'; apply nth_error_Some; congruence).
    pose proof (H i u v w G Hw Nu Nv) as K. rewrite (get2_inj e n) in K by auto. injection K; auto.
Qed.

Lemma intrinsic_both x out : length x = e -> length out = e ->
  exists y, np_add (map Fin x) (map Fin cost) = Some (map Fin y) /\
    intrinsic_output (map Fin x) (map Fin cost) out = Some (map Fin y) /\ length y = e.
Proof.
  intros Lx Lo. destruct (intrinsic_output_ok e x cost out Lx Lcost Lo) as (y & E1 & L & H).
  exists y. rewrite np_add_Fin by lia. split; [|auto]. do 2 f_equal.
  apply nth_ext with (d := 0%Qc) (d' := 0%Qc); [rewrite qplus_length; lia|]. intros i Hi.
  rewrite qplus_length in Hi. rewrite nth_qplus, H by lia. reflexivity.
Qed.
Lemma decision_both y : length y = e ->
  exists sel c, py_hard_decision o d (map Fin y) = Some (map (py_hard (p_thr p)) (map Fin y), sel, Fin c) /\
    select_edges e (hard_decision (p_thr p) (map Fin y)) E = Some sel /\
    selection_cost (hard_decision (p_thr p) (map Fin y)) (map Fin cost) = Some (Fin c) /\ incl sel E.
Proof.
  intros L. pose proof (select_ok (p_thr p) (map Fin y) E e ltac:(rewrite map_length; exact L) He) as E1.
  pose proof (cost_ok (p_thr p) (map Fin y) cost e ltac:(rewrite map_length; exact L) Lcost) as E2.
  eexists _, _. split; [|split; [exact E1|split; [exact E2|eapply select_incl; exact E1]]].
  unfold py_hard_decision. cbn [d pd_edges pd_cost]. rewrite Ho6.
  rewrite (np_mask_ok _ y E (0, 0)) by (auto; lia). cbn [bind].
  rewrite (np_mask_ok _ y (map Fin cost) (Fin 0)) by (auto; rewrite map_length; lia). cbn [bind].
  rewrite (map_ext _ (fun i => Fin (nth i cost 0%Qc))) by (intros i; apply map_nth).
  rewrite <- (map_map (fun i => nth i cost 0%Qc) Fin), np_sum_Fin. reflexivity.
Qed.

(** what both programs hold after a stage *)
Record agrees (st : tsp_state) (ps : pt_state) : Prop := {
  ag_intr : pt_intr ps = r_intr (t_sol st);
  ag_hd : pt_hd ps = map (fun b : bool => if b then n1 else n0) (hard_decision (p_thr p) (r_intr (t_sol st)));
  ag_selected : pt_selected ps = r_selected (t_sol st);
  ag_cost : pt_cost ps = r_cost (t_sol st);
  ag_an : same_analysis ps (t_an st) }.
Definition inv (st : tsp_state) (ps : pt_state) : Prop :=
  kept p st /\ agrees st ps /\ pm_e2d (pt_msgs_of ps) = m_e2d (t_msgs st) /\ off_zero n E (unm (m_e2d (t_msgs st))) /\
  pm_sub (pt_msgs_of ps) = m_sub (t_msgs (grow p st)).

Lemma hard_same y : map (py_hard (p_thr p)) (map Fin y)
  = map (fun b : bool => if b then n1 else n0) (hard_decision (p_thr p) (map Fin y)).
Proof.
  unfold hard_decision. rewrite !map_map. apply map_ext. intros q. unfold py_hard, mask_below, mask_above.
  assert (X : nleb (Fin q) (p_thr p) = negb (ngt (Fin q) (p_thr p))).
  { unfold nleb, ngt. destruct (p_thr p); cbn in *; auto; try discriminate. }
  rewrite X. destruct (ngt (Fin q) (p_thr p)); reflexivity.
Qed.

Lemma kept_first st : iterate_relaxed p (tsp_init p) = Some st -> kept p st.
Proof.
  intros R. exact (history_kept p al cost C CM C Hn HE He Hal Hcost Lcost HC SC HCM SCM Hed SC Po' st [] (h_relaxed p st R)).
Qed.

Lemma first_stage_same : 0 < p_iters p ->
  exists m intr dec ps st,
    py_iterate_relaxed o d {| pm_e2d := inj C; pm_deg := None; pm_deg_old := None; pm_sub := []; pm_sub_old := None |} = Some (m, intr) /\
    py_hard_decision o d intr = Some dec /\ py_analysis d m intr dec [] [] false false = Some ps /\
    iterate_relaxed p (tsp_init p) = Some st /\
    kept p st /\ pm_e2d (pt_msgs_of ps) = m_e2d (t_msgs st) /\ off_zero n E (unm (m_e2d (t_msgs st))) /\
    m_sub (t_msgs st) = [] /\ pm_sub (pt_msgs_of ps) = [] /\
    (~ In [] (pt_deltas ps) -> agrees st ps) /\
    (Forall (fun l => delta_S E l <> []) (a_paths (t_an st)) \/ a_tour_flag (t_an st) = true -> agrees st ps) /\
    r_intr (t_sol st) = intr /\ length intr = e.
Proof.
  intros Hi.
  destruct (for_up_sim (p_iters p) {| pm_e2d := inj C; pm_deg := None; pm_deg_old := None; pm_sub := []; pm_sub_old := None |}
     (t_msgs (tsp_init p)) (py_relaxed_step o d) (relaxed_step p) relaxed_rel) as (pm & m & E1 & E2 & R).
  { split; [|split; [|reflexivity]].
    - unfold fin_msgs. cbn. fold e n. rewrite Hed. split; [exists C; auto|].
      do 3 (split; [apply finm_zeros|]).
      split; [exists []; split; [split; [reflexivity|constructor]|reflexivity]|].
      split; [exists []; split; [split; [reflexivity|constructor]|reflexivity]|].
      exists 0, []; split; [split; [reflexivity|constructor]|reflexivity].
    - unfold deg_rel. cbn. rewrite Hed, unm_inj. split; [reflexivity|]. split; [exact OC|].
      split; [intros i u v w _ _ _ _; apply qat_unm_zeros|]. split; intros; lia. }
  { intros i a b _ R. apply relaxed_step_same, R. }
  destruct R as ((F1 & F2 & F3 & F4 & F5 & F6 & F7) & (R1 & R2 & R3 & R4 & R5) & R6). destruct (R5 Hi) as (R7 & R8).
  apply finm_unm in F4 as (E4 & S4). fold n e in S4.
  assert (X1 : exists x, extrinsic_relaxed (m_deg m) (r_extr (t_sol (tsp_init p))) = Some (map Fin x) /\
    py_extrinsic_relaxed (m_deg m) = map Fin x /\ length x = e).
  { pose proof (extrinsic_relaxed_same e n (unm (m_deg m)) (r_extr (t_sol (tsp_init p))) S4 ltac:(cbn; apply repeat_length)) as X.
    rewrite <- E4 in X. unfold py_extrinsic_relaxed in *. rewrite E4 in X at 2. rewrite row_sums_inj in X.
    exists (map qsum (unm (m_deg m))). split; [exact X|]. split; [rewrite E4 at 1; apply row_sums_inj|]. rewrite map_length. apply S4. }
  destruct X1 as (x & X1 & X2 & Lx).
  destruct (intrinsic_both x (r_intr (t_sol (tsp_init p))) Lx ltac:(cbn; apply repeat_length)) as (y & Y1 & Y2 & Ly).
  destruct (decision_both y Ly) as (sel & c & D1 & D2 & D3 & D4).
  destruct (analysis_same p d pm (map Fin y) (map (py_hard (p_thr p)) (map Fin y)) sel (Fin c) [] (t_an (tsp_init p)))
    as (ps & a & A1 & A2 & A3 & A4 & A5 & A6 & A7 & _ & A8 & A9); auto.
  { exact edges_differ. } { rewrite !map_length. cbn. lia. }
  cbn [tsp_init t_an a_deltas] in A1.
  assert (IR : iterate_relaxed p (tsp_init p) = Some {| t_msgs := m;
          t_sol := {| r_extr := map Fin x; r_intr := map Fin y; r_selected := sel; r_cost := Fin c |};
          t_an := a; t_cnt := t_cnt (tsp_init p) |}).
  { unfold iterate_relaxed. fold e E. rewrite E2; cbn [bind]. rewrite X1; cbn [bind]. rewrite Hcost, Y2; cbn [bind].
    rewrite D2; cbn [bind]. rewrite D3; cbn [bind]. rewrite A2; cbn [bind]. reflexivity. }
  eexists pm, (map Fin y), _, ps, _. split; [|split; [exact D1|split; [exact A1|split; [exact IR|]]]].
  - unfold py_iterate_relaxed. rewrite Ho1, E1; cbn [bind]. rewrite R7; cbn [bind]. rewrite X2. cbn [d pd_cost]. rewrite Y1. reflexivity.
  - split; [exact (kept_first _ IR)|]. cbn [t_msgs]. rewrite A3. split; [exact R1|]. split; [exact R2|].
    split; [destruct F5 as ([|? ?] & (L0 & _) & ->); [reflexivity|discriminate]|]. split; [exact R6|].
    split; [|split; [|split; [reflexivity|rewrite map_length; exact Ly]]]; intros H; constructor;
      cbn [t_sol t_an r_intr r_selected r_cost]; auto; rewrite A5; apply hard_same.
Qed.

Lemma round_same st ps : 0 < p_iters p -> inv st ps -> a_tour_flag (t_an st) = false -> a_satisfied (t_an st) = false ->
  a_deltas (t_an st) <> [] ->
  exists st' ps', iterate_augmented p (grow p st) = Some (Returned st') /\ py_round o d ps = Some (Some ps') /\
    (~ In [] (pt_deltas ps') -> inv st' ps') /\
    (Forall (fun l => delta_S E l <> []) (a_paths (t_an st')) \/ a_tour_flag (t_an st') = true -> inv st' ps').
Proof.
  intros Hi (K & AG & R1 & R2 & R3) Fl Sa Nd. destruct AG as [G1 G2 G3 G4 [H1 H2 H3 H4 H5]].
  pose proof K as ((S0 & F & L) & OD & SO & SDm).
  pose proof (grow_fin p Hn He S0 st F L) as G. destruct (grow_fields p st) as (T1 & T2 & T3).
  assert (Gm : m_e2d (t_msgs (grow p st)) = m_e2d (t_msgs st) /\
    m_deg_dummy (t_msgs (grow p st)) = m_deg_dummy (t_msgs st) /\
    sub_off p (a_deltas (t_an st)) (unm (m_sub_dummy (t_msgs (grow p st))))).
  { unfold grow. destruct (_ =? _); [auto 10|]. cbn [set_msgs t_msgs extend_sub m_e2d m_deg_dummy m_sub m_sub_dummy].
    split; [reflexivity|]. split; [reflexivity|].
    intros s dl i Gd Hi' NI; rewrite qat_app_zeros; eapply SO; eauto. }
  destruct Gm as (Ge & Gdd & Gsd).
  pose proof G as ((F1 & F2 & F3 & F4 & F5 & F6 & (N & F7)) & Fx & Fi & _ & Gd). rewrite T2 in Gd.
  set (deltas := a_deltas (t_an st)) in *. rewrite Ge in F1. fold n e in F1.
  (* reset *)
  assert (RS : exists V, (if p_reset p then reset_messages E (inj CM) (m_e2d (t_msgs st)) else Some (m_e2d (t_msgs st))) = Some (inj V) /\
    shape e n V /\ off_zero n E V).
  { apply finm_unm in F1 as (E1 & S1). destruct (p_reset p).
    - rewrite E1. apply reset_off; auto.
    - exists (unm (m_e2d (t_msgs st))). rewrite <- E1. auto. }
  destruct RS as (V & RV & SV & OV).
  set (m0 := {| m_e2d := inj V; m_deg_dummy := m_deg_dummy (t_msgs (grow p st)); m_deg_old := m_deg_old (t_msgs (grow p st));
      m_deg := m_deg (t_msgs (grow p st)); m_sub_dummy := m_sub_dummy (t_msgs (grow p st));
      m_sub_old := m_sub_old (t_msgs (grow p st)) ++ zeros (length deltas) e; m_sub := m_sub (t_msgs (grow p st)) |}).
  set (pm0 := {| pm_e2d := inj V; pm_deg := pm_deg (pt_msgs_of ps); pm_deg_old := pm_deg_old (pt_msgs_of ps);
      pm_sub := pm_sub (pt_msgs_of ps); pm_sub_old := pm_sub_old (pt_msgs_of ps) |}).
  destruct (for_up_sim (p_iters p) pm0 m0 (py_augmented_step o d deltas) (augmented_step p deltas) (augmented_rel deltas))
    as (pm & m & E1 & E2 & R).
  { assert (X : finm (N + length deltas) e (m_sub_old (t_msgs (grow p st)) ++ zeros (length deltas) e))
      by (apply (finm_app p); auto; apply finm_zeros).
    split; [|split; [|split]].
    - unfold fin_msgs; cbn. fold e n. split; [exists V; auto|]. eauto 10.
    - exists (N + length deltas); split; [lia|exact X].
    - unfold deg_rel. cbn. rewrite unm_inj, Gdd. split; [reflexivity|]. split; [exact OV|]. split; [exact OD|]. split; intros; lia.
    - unfold sub_rel. cbn. split; [exact R3|]. split; [exact Gsd|]. intros; lia. }
  { intros i a b _ R. apply augmented_step_same; auto. }
  destruct R as ((M1 & M2 & M3 & M4 & M5 & M6 & M7) & _ & (Q1 & Q2 & Q3 & Q4 & Q5) & (Q6 & _)). destruct (Q5 Hi) as (Q7 & Q8).
  apply finm_unm in M4 as (EM4 & S4). apply finm_unm in M5 as (EM5 & S5). fold n e in S4, S5.
  assert (L0 : length deltas <> 0) by (destruct deltas; [congruence|discriminate]).
  destruct (extrinsic_augmented_same e n (length deltas) (unm (m_deg m)) (unm (m_sub m)) (r_extr (t_sol (grow p st))) S4 S5 L0
              (finv_length _ _ Fx)) as (X & X1 & X2 & LX).
  destruct (extrinsic_augmented_ok e n (length deltas) (unm (m_deg m)) (unm (m_sub m)) (r_extr (t_sol (grow p st))) S4 S5
              (finv_length _ _ Fx)) as (x & X3 & Lx & _).
  rewrite X2 in X3. injection X3 as ->. rewrite <- EM4, <- EM5 in X1, X2.
  destruct (intrinsic_both x (r_intr (t_sol (grow p st))) Lx (finv_length _ _ Fi)) as (y & Y1 & Y2 & Ly).
  destruct (decision_both y Ly) as (sel & c & D1 & D2 & D3 & D4).
  destruct (analysis_same p d pm (map Fin y) (map (py_hard (p_thr p)) (map Fin y)) sel (Fin c) (pt_tour ps) (t_an st))
    as (ps' & a & A1 & A2 & A3 & A4 & A5 & A6 & A7 & _ & A8 & A9); auto.
  { exact edges_differ. } { rewrite !map_length. cbn. lia. }
  fold deltas in A1.
  match goal with |- exists st' ps', ?I = _ /\ _ => assert (IA : exists st', I = Some (Returned st') /\ t_msgs st' = m /\
      t_sol st' = {| r_extr := map Fin x; r_intr := map Fin y; r_selected := sel; r_cost := Fin c |} /\ t_an st' = a) end.
  { unfold iterate_augmented. rewrite T2, Ge. fold e E deltas. cbn zeta. rewrite HCM, RV. cbn [bind]. fold m0. rewrite E2. cbn [bind].
    rewrite (finm_no_nan _ _ _ M1), X2. cbn [bind]. rewrite Hcost, Y2; cbn [bind].
    rewrite D2; cbn [bind]. rewrite D3; cbn [bind]. rewrite A2; cbn [bind]. eexists. split; [reflexivity|]. auto. }
  destruct IA as (st' & IA & J1 & J2 & J3).
  assert (K' : kept p st') by (apply (round_stage p al cost C CM Hn HE He Hal Hcost Lcost HC SC HCM SCM Po' st st' K IA)).
  assert (PR : py_round o d ps = Some (Some (if length (pm_sub (pt_msgs_of ps')) =? length (pt_deltas ps') then ps'
    else set_sub ps' (pm_sub (pt_msgs_of ps') ++ np_zeros (length (pt_deltas ps') - length (pm_sub (pt_msgs_of ps'))) e)))).
  { unfold py_round, py_iterate_augmented. rewrite H1. fold deltas. rewrite R1, Ho3. cbn [d pd_edges pd_cm pd_cost pd_n].
    change (py_reset E (inj CM) (m_e2d (t_msgs st))) with (reset_messages E (inj CM) (m_e2d (t_msgs st))).
    rewrite RV. cbn [bind]. fold pm0 d. rewrite Ho1, E1. cbn [bind]. rewrite Q7. cbn [bind]. rewrite Q6, X1. cbn [bind].
    rewrite Y1. cbn [bind]. fold d. rewrite D1. cbn [bind]. rewrite Q1, (finm_no_nan _ _ _ M1), andb_false_r.
    rewrite H2, H3, Fl, Sa, A1. cbn [bind]. rewrite num_edges, He. reflexivity. }
  eexists st', _. split; [exact IA|]. split; [exact PR|].
  assert (FIN : same_analysis ps' a -> inv st' (if length (pm_sub (pt_msgs_of ps')) =? length (pt_deltas ps') then ps'
    else set_sub ps' (pm_sub (pt_msgs_of ps') ++ np_zeros (length (pt_deltas ps') - length (pm_sub (pt_msgs_of ps'))) e))).
  { intros SA. assert (LD : length (pt_deltas ps') = length (a_deltas a)) by (f_equal; apply SA).
    split; [exact K'|]. split; [|split; [|split]].
    - assert (B0 : agrees st' ps').
      { constructor; rewrite ?J2, ?J3; cbn [r_intr r_selected r_cost]; auto. rewrite A5. apply hard_same. }
      destruct (_ =? _); [exact B0|]. destruct B0 as [Z1 Z2 Z3 Z4 [Z5 Z6 Z7 Z8 Z9]].
      constructor; auto. constructor; auto.
    - destruct (_ =? _); cbn [set_sub pt_msgs_of pm_e2d]; rewrite A3, J1; exact Q1.
    - rewrite J1. exact Q2.
    - unfold grow. rewrite J1, J3, A3, Q6, LD.
      destruct (length (m_sub m) =? length (a_deltas a)); cbn [set_sub pt_msgs_of pm_sub set_msgs t_msgs extend_sub m_sub]; rewrite ?J1, ?A3, ?Q6; reflexivity. }
  rewrite J3. split.
  - intros NI. apply FIN, A8. destruct (_ =? _); exact NI.
  - intros NI. apply FIN, A9, NI.
Qed.
(** *** Rounds *)
Lemma py_round_empty ps : 0 < p_iters p -> pt_deltas ps = [] -> py_round o d ps = None.
Proof.
  intros Hi Ed. unfold py_round. rewrite Ed.
  replace (py_iterate_augmented o d [] (pt_msgs_of ps)) with (@None (pt_msgs * list num)); [reflexivity|].
  unfold py_iterate_augmented. destruct (if po_reset o then _ else _) as [e2d|]; [|reflexivity]. cbn [bind].
  rewrite Ho1. destruct (p_iters p) as [|k]; [lia|].
  match goal with |- context [for_up 0 _ ?m0 ?bd] => assert (X : bd m0 0 = None) end.
  { unfold py_augmented_step. cbn zeta. cbn [pm_e2d pm_deg_old pm_sub pm_sub_old].
    destruct (py_degree_update _ _ _ _) as [dm|]; [|reflexivity]. cbn [bind].
    destruct (py_filtering _ _ _ dm _) as [(dg & od)|]; [|reflexivity]. cbn [bind].
    replace (py_edge_to_subtour (py_num_edges (pd_n d)) [] (pd_cost d) dg (pm_sub (pt_msgs_of ps))) with (Some (@nil (list num))) by reflexivity.
    cbn [bind].
    replace (py_subtour_update (py_num_edges (pd_n d)) [] []) with (Some (@nil (list num))) by reflexivity. cbn [bind].
    assert (Y : forall old, match py_filtering (po_filt o) (po_alpha o) 0 [] old with Some (m, _) => m = [] | None => True end).
    { intros old. unfold py_filtering. cbn [Nat.eqb Nat.ltb Nat.leb andb]. destruct (po_filt o); cbn [andb negb]; [|reflexivity].
      destruct (negb _); [reflexivity|exact I]. }
    specialize (Y (pm_sub_old (pt_msgs_of ps))).
    destruct (py_filtering _ _ _ [] _) as [(sb & so)|]; [|reflexivity]. subst sb. cbn [bind]. reflexivity. }
  unfold for_up. rewrite Nat.sub_0_r. cbn [seq foldM]. rewrite X. reflexivity.
Qed.
Lemma add_fold_incl (hds : list num) loops : forall ds ds', foldM (fun ds l =>
     idx <- py_indices (pd_edges d) l ;; _ <- np_take hds idx ;;
     Some (if existsb (fun d' => list_eqb d' (py_delta (pd_edges d) l)) ds then ds else ds ++ [py_delta (pd_edges d) l])) loops ds = Some ds' ->
  incl ds ds'.
Proof.
  induction loops as [|l loops IH]; cbn [foldM]; intros ds ds' H; [injection H as <-; apply incl_refl|].
  destruct (py_indices (pd_edges d) l) as [idx|]; [|discriminate]. cbn [bind] in H.
  destruct (np_take hds idx); [|discriminate]. cbn [bind] in H. apply IH in H.
  destruct (existsb _ ds); [exact H|]. intros x Hx. apply H, in_or_app. auto.
Qed.
Lemma py_analysis_incl m intr dec ds tour f s ps : py_analysis d m intr dec ds tour f s = Some ps -> incl ds (pt_deltas ps).
Proof.
  unfold py_analysis. destruct dec as ((hds & sel) & c). destruct (py_get_closed_loops sel) as [[|l ls]|]; cbn [bind]; [| |discriminate].
  { intros X; injection X as <-. apply incl_refl. }
  destruct (_ && _).
  - destruct (get l 0); cbn [bind]; [|discriminate]. intros X; injection X as <-. apply incl_refl.
  - match goal with |- context [foldM ?f ?l ds] => destruct (foldM f l ds) as [ds'|] eqn:F end; cbn [bind]; [|discriminate].
    intros X; injection X as <-. exact (add_fold_incl hds _ _ _ F).
Qed.
Lemma py_round_incl ps ps' : py_round o d ps = Some (Some ps') -> incl (pt_deltas ps) (pt_deltas ps').
Proof.
  unfold py_round. destruct (py_iterate_augmented _ _ _ _) as [(m & intr)|]; cbn [bind]; [|discriminate].
  destruct (py_hard_decision _ _ _) as [dec|]; cbn [bind]; [|discriminate]. destruct (_ && _); [discriminate|].
  destruct (py_analysis _ _ _ _ _ _ _ _) as [ps0|] eqn:A; cbn [bind]; [|discriminate]. intros X; injection X as <-.
  apply py_analysis_incl in A. destruct (_ =? _); exact A.
Qed.
Definition final (r : pt_outcome) : option pt_state :=
  match r with PyDone ps | PyRunning ps => Some ps | PyExit => None end.
Lemma py_rounds_incl k : forall ps r ps', py_rounds k o d ps = Some r -> final r = Some ps' -> incl (pt_deltas ps) (pt_deltas ps').
Proof.
  induction k as [|k IH]; intros ps r ps'; cbn [py_rounds]; destruct (_ && _ && _).
  - intros X Y; injection X as <-. injection Y as <-. apply incl_refl.
  - intros X Y; injection X as <-. injection Y as <-. apply incl_refl.
  - destruct (py_round o d ps) as [[ps1|]|] eqn:R; cbn [bind]; [| |discriminate].
    + intros X Y. eapply incl_tran; [exact (py_round_incl _ _ R)|exact (IH _ _ _ X Y)].
    + intros X Y; injection X as <-. discriminate.
  - intros X Y; injection X as <-. injection Y as <-. apply incl_refl.
Qed.

(** the result of the library beside the one of the Python program: [ref j] is the Python run cut
    after [j] rounds *)
Definition outcomes_agree (ref : nat -> option pt_outcome) (max_augm : Z) (k base : nat) (out : outcome) (r : pt_outcome) : Prop :=
  match out with
  | Running st => exists ps, r = PyRunning ps /\ agrees st ps /\ c_num_aug (t_cnt st) = base + k
  | Returned st => exists j ps, j <= k /\ c_num_aug (t_cnt st) = base + j /\ agrees st ps /\
      ((ref j = Some (PyDone ps) /\ r = PyDone ps) \/
       (ref j = Some (PyRunning ps) /\
         (a_nocons_flag (t_an st) = true \/ c_noimp_flag (t_cnt st) = true \/ c_osc_flag (t_cnt st) = true \/
          Z.of_nat (c_num_aug (t_cnt st)) = max_augm)))
  | Exited => exists j ps, j <= k /\ ref j = Some (PyRunning ps) /\ pt_cost ps = n0
  end.
Lemma agrees_fields st st' ps : t_sol st' = t_sol st -> t_an st' = t_an st -> agrees st ps -> agrees st' ps.
Proof. intros A B [X1 X2 X3 X4 X5]. constructor; rewrite ?A, ?B; auto. Qed.
Lemma agrees_grow st ps : agrees st ps -> agrees (grow p st) ps.
Proof. destruct (grow_fields p st) as (A & B & _). apply agrees_fields; auto. Qed.
Lemma round_count st st' : iterate_augmented p st = Some (Returned st') -> c_num_aug (t_cnt st') = c_num_aug (t_cnt st) + 1.
Proof.
  unfold iterate_augmented. cbn zeta.
  repeat match goal with |- bind ?x _ = _ -> _ => destruct x; cbn [bind]; [|discriminate] end.
  destruct (existsb _ _); [discriminate|].
  repeat match goal with |- bind ?x _ = _ -> _ => destruct x; cbn [bind]; [|discriminate] end.
  intros X; injection X as <-. reflexivity.
Qed.
Lemma py_rounds_done k ps : negb (pt_satisfied ps) && po_aug o && negb (pt_tour_flag ps) = false -> py_rounds k o d ps = Some (PyDone ps).
Proof. intros H. destruct k; cbn [py_rounds]; rewrite H; reflexivity. Qed.

Lemma rounds_same max_augm : 0 < p_iters p -> forall k st ps r rs, inv st ps -> py_rounds k o d ps = Some r ->
  final r = Some rs -> ~ In [] (pt_deltas rs) ->
  exists out, augmentation_loop k p max_augm (grow p st) = Some out /\
    outcomes_agree (fun j => py_rounds j o d ps) max_augm k (c_num_aug (t_cnt st)) out r.
Proof.
  intros Hi. induction k as [|k IH]; intros st ps r rs I R Fr Nr.
  - pose proof I as (K & AG & _). destruct AG as [G1 G2 G3 G4 [H1 H2 H3 H4 H5]] eqn:AGe. destruct (grow_fields p st) as (T1 & T2 & T3).
    cbn [augmentation_loop]. rewrite T2, T3, T1.
    assert (R0 : py_rounds 0 o d ps = Some (if negb (a_satisfied (t_an st)) && p_aug p && negb (a_tour_flag (t_an st))
      then PyRunning ps else PyDone ps)) by (cbn [py_rounds]; rewrite Ho2, H2, H3; destruct (_ && _ && _); reflexivity).
    rewrite R0 in R. injection R as <-.
    destruct (negb (a_satisfied (t_an st)) && p_aug p && negb (a_tour_flag (t_an st))) eqn:B.
    + injection Fr as <-.
      destruct (a_nocons_flag (t_an st) || c_noimp_flag (t_cnt st) || c_osc_flag (t_cnt st)) eqn:Fl.
      * eexists. split; [reflexivity|]. exists 0, ps. rewrite T3, T2. split; [lia|]. split; [lia|]. split; [apply agrees_grow, I|].
        right. split; [exact R0|].
        apply orb_prop in Fl as [Fl|Fl]; [apply orb_prop in Fl as [Fl|Fl]|]; auto.
      * destruct (neqb (r_cost (t_sol st)) n0) eqn:Z.
        -- eexists. split; [reflexivity|]. exists 0, ps. split; [lia|]. split; [exact R0|].
           rewrite G4. apply neqb_n0_iff, Z.
        -- eexists. split; [reflexivity|]. exists ps. rewrite T3. split; [reflexivity|]. split; [apply agrees_grow, I|lia].
    + injection Fr as <-. eexists. split; [reflexivity|]. exists 0, ps. rewrite T3. split; [lia|]. split; [lia|].
      split; [apply agrees_grow, I|]. left. split; [exact R0|reflexivity].
  - pose proof I as (K & AG & _). destruct AG as [G1 G2 G3 G4 [H1 H2 H3 H4 H5]] eqn:AGe. destruct (grow_fields p st) as (T1 & T2 & T3).
    cbn [augmentation_loop]. rewrite T2, T3, T1.
    destruct (negb (a_satisfied (t_an st)) && p_aug p && negb (a_tour_flag (t_an st))) eqn:B.
    2:{ assert (D : forall j, py_rounds j o d ps = Some (PyDone ps)) by (intros j; apply py_rounds_done; rewrite Ho2, H2, H3; exact B).
        rewrite D in R. injection R as <-. eexists. split; [reflexivity|]. exists 0, ps. rewrite T3. split; [lia|]. split; [lia|].
        split; [apply agrees_grow, I|]. left. split; [apply D|reflexivity]. }
    assert (R0 : py_rounds 0 o d ps = Some (PyRunning ps)) by (cbn [py_rounds]; rewrite Ho2, H2, H3, B; reflexivity).
    destruct (a_nocons_flag (t_an st) || c_noimp_flag (t_cnt st) || c_osc_flag (t_cnt st)) eqn:Fl.
    { eexists. split; [reflexivity|]. exists 0, ps. rewrite T3, T2. split; [lia|]. split; [lia|]. split; [apply agrees_grow, I|].
      right. split; [exact R0|]. apply orb_prop in Fl as [Fl|Fl]; [apply orb_prop in Fl as [Fl|Fl]|]; auto. }
    destruct (neqb (r_cost (t_sol st)) n0) eqn:Z.
    { eexists. split; [reflexivity|]. exists 0, ps. split; [lia|]. split; [exact R0|]. rewrite G4. apply neqb_n0_iff, Z. }
    assert (UN : forall j, py_rounds (Datatypes.S j) o d ps =
        (r <- py_round o d ps ;; match r with Some st => py_rounds j o d st | None => Some PyExit end)).
    { intros j. cbn [py_rounds]. rewrite Ho2, H2, H3, B. reflexivity. }
    rewrite UN in R. apply andb_prop in B as (B & B3). apply andb_prop in B as (B1 & B2).
    apply negb_true_iff in B1, B3.
    assert (Nd : a_deltas (t_an st) <> []).
    { intros Q. rewrite (py_round_empty ps) in R by (auto; rewrite H1; exact Q). discriminate. }
    destruct (round_same st ps Hi I B3 B1 Nd) as (st' & ps' & E1 & E2 & E3 & _).
    rewrite E2 in R. cbn [bind] in R.
    assert (I' : inv st' ps') by (apply E3; intros X; apply Nr; exact (py_rounds_incl _ _ _ _ R Fr _ X)).
    pose proof I' as (K' & AG' & _). pose proof (round_count _ _ E1) as Cn. rewrite T3 in Cn.
    rewrite E1. cbn [bind].
    destruct (Z.eqb_spec (Z.of_nat (c_num_aug (t_cnt st'))) max_augm) as [Mx|Mx].
    + eexists. split; [reflexivity|]. exists 1, ps'. split; [lia|]. split; [lia|]. split; [exact AG'|].
      rewrite (UN 0), E2. cbn [bind].
      destruct (negb (pt_satisfied ps') && po_aug o && negb (pt_tour_flag ps')) eqn:B'.
      * right. split; [cbn [py_rounds]; rewrite B'; reflexivity|]. auto.
      * left. rewrite (py_rounds_done k ps' B') in R. injection R as <-. rewrite py_rounds_done by exact B'. auto.
    + destruct (IH st' ps' r rs I' R Fr Nr) as (out & L & OA). exists out. split.
      * rewrite <- L. reflexivity.
      * unfold outcomes_agree in *. destruct out as [s| |s].
        -- destruct OA as (j & q & Q1 & Q2 & Q3 & Q4). exists (Datatypes.S j), q. split; [lia|]. split; [lia|]. split; [exact Q3|].
           rewrite UN, E2. exact Q4.
        -- destruct OA as (j & q & Q1 & Q2 & Q3). exists (Datatypes.S j), q. split; [lia|]. rewrite UN, E2. auto.
        -- destruct OA as (q & Q1 & Q2 & Q3). exists q. split; [exact Q1|]. split; [exact Q2|lia].
Qed.

Definition py_start : pt_msgs := {| pm_e2d := inj C; pm_deg := None; pm_deg_old := None; pm_sub := []; pm_sub_old := None |}.
(** main_tsp.py:167-171 once the arrays are built *)
Definition py_reference_from (fuel : nat) : option pt_outcome :=
  ' (m, intr) <- py_iterate_relaxed o d py_start ;;
  dec <- py_hard_decision o d intr ;;
  st <- py_analysis d m intr dec [] [] false false ;;
  let st := if negb (pt_satisfied st) && po_aug o
            then set_sub st (np_zeros (length (pt_deltas st)) (py_num_edges n)) else st in
  py_rounds fuel o d st.

Lemma reference_same max_augm k r rs : 0 < p_iters p -> py_reference_from k = Some r ->
  final r = Some rs -> ~ In [] (pt_deltas rs) ->
  exists out, tsp_solve k p max_augm = Some out /\ outcomes_agree py_reference_from max_augm k 0 out r.
Proof.
  intros Hi R Fr Nr.
  destruct (first_stage_same Hi) as (m & intr & dec & ps & st & E1 & E2 & E3 & E4 & K & M1 & M2 & M3 & M4 & M5 & _).
  set (ps0 := if negb (pt_satisfied ps) && po_aug o then set_sub ps (np_zeros (length (pt_deltas ps)) (py_num_edges n)) else ps).
  assert (F : forall j, py_reference_from j = py_rounds j o d ps0).
  { intros j. unfold py_reference_from, py_start. rewrite E1; cbn [bind]. rewrite E2; cbn [bind]. rewrite E3; cbn [bind]. reflexivity. }
  rewrite F in R.
  assert (D0 : pt_deltas ps0 = pt_deltas ps) by (unfold ps0; destruct (_ && _); reflexivity).
  assert (AG : agrees st ps).
  { apply M5. intros X. apply Nr, (py_rounds_incl _ _ _ _ R Fr). rewrite D0. exact X. }
  assert (AG0 : agrees st ps0).
  { unfold ps0. destruct (_ && _); [|exact AG]. destruct AG as [G1 G2 G3 G4 [H1 H2 H3 H4 H5]]. constructor; auto. constructor; auto. }
  assert (C0 : c_num_aug (t_cnt st) = 0).
  { clear - E4. unfold iterate_relaxed in E4.
    repeat match type of E4 with bind ?x _ = _ => destruct x; cbn [bind] in E4; [|discriminate] end.
    injection E4 as <-. reflexivity. }
  pose proof AG as [G1 G2 G3 G4 [H1 H2 H3 H4 H5]].
  unfold tsp_solve. rewrite E4. cbn [bind].
  destruct (negb (a_satisfied (t_an st)) && p_aug p) eqn:B.
  - rewrite perform_grow by exact M3.
    destruct (rounds_same max_augm Hi k st ps0 r rs) as (out & L & OA); auto.
    + split; [exact K|]. split; [exact AG0|]. unfold ps0. rewrite Ho2, H3, B. cbn [set_sub pt_msgs_of pm_e2d pm_sub].
      split; [exact M1|]. split; [exact M2|]. unfold grow. rewrite M3, H1, num_edges, He. cbn [length].
      destruct (Nat.eqb_spec 0 (length (a_deltas (t_an st)))) as [<-|N]; [rewrite M3; reflexivity|].
      cbn [set_msgs t_msgs extend_sub m_sub]. rewrite M3, Nat.sub_0_r. reflexivity.
    + exists out. split; [exact L|]. rewrite C0 in OA. unfold outcomes_agree in *.
      destruct out as [s| |s]; [| |exact OA].
      * destruct OA as (j & q & Q). exists j, q. rewrite F. exact Q.
      * destruct OA as (j & q & Q). exists j, q. rewrite F. exact Q.
  - assert (B' : negb (pt_satisfied ps0) && po_aug o && negb (pt_tour_flag ps0) = false).
    { unfold ps0. rewrite Ho2, H3, B. rewrite H3, B. reflexivity. }
    rewrite (py_rounds_done k ps0 B') in R. injection R as <-.
    eexists. split; [reflexivity|]. exists 0, ps0. rewrite F. split; [lia|]. split; [lia|]. split; [exact AG0|].
    left. rewrite (py_rounds_done 0 ps0 B'). auto.
Qed.
End Msgs.

(** *** What a finished first stage says about the settings *)
Lemma for_up_zero {A} (k : nat) (a : A) (f : A -> nat -> option A) : k = 0 -> for_up 0 k a f = Some a.
Proof. intros ->. reflexivity. Qed.
Lemma relaxed_settings o d e2d x :
  py_iterate_relaxed o d {| pm_e2d := e2d; pm_deg := None; pm_deg_old := None; pm_sub := []; pm_sub_old := None |} = Some x ->
  0 < po_iters o /\ (po_filt o = true -> po_alpha o <> n0).
Proof.
  unfold py_iterate_relaxed. intros H. destruct (po_iters o) as [|k] eqn:Ek.
  - rewrite for_up_zero in H by reflexivity. discriminate.
  - split; [lia|]. intros Ff Ha.
    match type of H with context [for_up 0 _ ?m0 ?bd] => assert (X : bd m0 0 = None) end.
    { unfold py_relaxed_step. destruct (py_degree_update _ _ _ _); [|reflexivity]. cbn [bind].
      unfold py_filtering. rewrite Ff, Ha. reflexivity. }
    unfold for_up in H. rewrite Nat.sub_0_r in H. cbn [seq foldM] in H. rewrite X in H. discriminate.
Qed.
