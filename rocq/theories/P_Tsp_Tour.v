(** * TSP post-processing: tour costs, missing nodes, k-opt *)
From Coq Require Import Permutation.
From Verif Require Import Num NumFacts Arr ArrFacts Spec SpecGraph SpecTour P_Ksat P_Equality P_Runs P_Tsp_Constraints T_Tsp_Run.
From Verif Require Import M_InOut M_Tsp_Loops M_Tsp_Run M_Tsp_Py M_Ksat_Py P_Ksat_Py M_Tsp_Post.
Local Open Scope nat_scope.

Lemma edge_eqb_iff : forall a b, edge_eqb a b = true <-> a = b.
Proof.
  intros (a & b) (c & d). unfold edge_eqb; cbn. rewrite andb_true_iff, !Nat.eqb_eq.
  split; [intros (-> & ->); reflexivity|intros Q; injection Q; auto].
Qed.
Lemma edge_eqb_refl : forall a, edge_eqb a a = true.
Proof. intros a; now apply edge_eqb_iff. Qed.
Lemma edge_mem_In : forall e l, edge_mem e l = true <-> In e l.
Proof.
  intros e l; unfold edge_mem; rewrite existsb_exists; split.
  - intros (x & I & Q); apply edge_eqb_iff in Q; now subst.
  - intros I; exists e; split; [exact I|apply edge_eqb_refl].
Qed.
Lemma edge_mem_out : forall e l, edge_mem e l = false <-> ~ In e l.
Proof. intros e l; rewrite <- edge_mem_In; destruct (edge_mem e l); split; congruence. Qed.

(** ** Cost of a tour *)
Lemma gather_perm : forall (E pairs : list (nat * nat)), NoDup E -> incl pairs E ->
  Permutation (flat_map (fun e => filter (edge_eqb e) pairs) E) pairs.
Proof.
  induction E as [|e E IH]; intros pairs N I.
  - destruct pairs as [|p pairs]; [constructor|]. destruct (I p); now left.
  - inversion N as [|? ? Ne NE]; subst. cbn.
    assert (P : Permutation (filter (edge_eqb e) pairs ++ filter (fun p => negb (edge_eqb e p)) pairs) pairs).
    { clear. induction pairs as [|p l IH]; [constructor|]. cbn. destruct (edge_eqb e p); cbn.
      - now constructor.
      - apply Permutation_sym. eapply Permutation_trans; [|apply Permutation_middle]. constructor. now apply Permutation_sym. }
    eapply Permutation_trans; [|exact P]. apply Permutation_app_head.
    eapply Permutation_trans; [|apply (IH (filter (fun p => negb (edge_eqb e p)) pairs) NE)].
    + replace (flat_map (fun e0 => filter (edge_eqb e0) (filter (fun p => negb (edge_eqb e p)) pairs)) E)
        with (flat_map (fun e0 => filter (edge_eqb e0) pairs) E); [apply Permutation_refl|].
      rewrite !flat_map_concat_map. f_equal. apply map_ext_in. intros x Hx.
      clear -Hx Ne. induction pairs as [|p l IH]; [reflexivity|]. cbn.
      destruct (edge_eqb x p) eqn:Q.
      * apply edge_eqb_iff in Q; subst p.
        destruct (edge_eqb e x) eqn:Q2; [apply edge_eqb_iff in Q2; subst; contradiction|].
        cbn. rewrite edge_eqb_refl. now f_equal.
      * destruct (edge_eqb e p); cbn; [exact IH|rewrite Q; exact IH].
    + intros p Hp. apply filter_In in Hp as (Hp & Q). destruct (I p Hp) as [->|J]; [|exact J].
      rewrite edge_eqb_refl in Q; discriminate.
Qed.
Lemma filter_eqb_repeat : forall e l, filter (edge_eqb e) l = repeat e (length (filter (edge_eqb e) l)).
Proof.
  intros e l; induction l as [|p l IH]; [reflexivity|]. cbn. destruct (edge_eqb e p) eqn:Q; [|exact IH].
  apply edge_eqb_iff in Q; subst. cbn. now f_equal.
Qed.
Lemma mapM_app : forall {A B} (f : A -> option B) l1 l2 r1 r2, mapM f l1 = Some r1 -> mapM f l2 = Some r2 ->
  mapM f (l1 ++ l2) = Some (r1 ++ r2).
Proof.
  intros A B f l1; induction l1 as [|a l IH]; intros l2 r1 r2 H1 H2; cbn in *.
  - injection H1 as <-; exact H2.
  - apply bind_Some in H1 as (b & Hb & H1). apply bind_Some in H1 as (bs & Hbs & H1). injection H1 as <-.
    rewrite Hb. cbn. rewrite (IH _ _ _ Hbs H2). reflexivity.
Qed.
Lemma mapM_repeat : forall {A B} (f : A -> option B) a b k, f a = Some b -> mapM f (repeat a k) = Some (repeat b k).
Proof. intros A B f a b k H; induction k as [|k IH]; [reflexivity|]. cbn. rewrite H. cbn. now rewrite IH. Qed.
Lemma py_sum_fin : forall l, py_sum (map Fin l) = Fin (qsum l).
Proof.
  intros l. unfold py_sum, n0.
  assert (G : forall a, fold_left nadd (map Fin l) (Fin a) = Fin (a + qsum l)).
  { induction l as [|x l IH]; intros a; cbn [map fold_left].
    - unfold qsum. cbn [fold_right]. f_equal. qlra.
    - rewrite nadd_Fin, IH, qsum_cons. f_equal. qlra. }
  rewrite G. f_equal. qlra.
Qed.

Lemma closing_pairs_steps : forall t, closing_pairs t = steps (t ++ firstn 1 t).
Proof. intros [|x t]; [reflexivity|]. cbn [firstn]. rewrite steps_closed. reflexivity. Qed.

(** values of the indices of a tour *)
Lemma tour_values : forall E (w : nat * nat -> Qc) pairs,
  mapM (get (map (fun e => Fin (w e)) E))
    (flat_map (fun ie => repeat (fst ie) (length (filter (edge_eqb (snd ie)) pairs))) (enumerate E)) =
  Some (map Fin (map w (flat_map (fun e => filter (edge_eqb e) pairs) E))).
Proof.
  intros E w pairs. unfold enumerate.
  assert (G : forall E1 E2, E = E1 ++ E2 ->
    mapM (get (map (fun e => Fin (w e)) E))
      (flat_map (fun ie => repeat (fst ie) (length (filter (edge_eqb (snd ie)) pairs))) (combine (seq (length E1) (length E2)) E2)) =
    Some (map Fin (map w (flat_map (fun e => filter (edge_eqb e) pairs) E2)))).
  { intros E1 E2; revert E1; induction E2 as [|e E2 IH]; intros E1 Q; [reflexivity|].
    cbn [length seq combine flat_map fst snd]. rewrite !map_app. apply mapM_app.
    - rewrite (mapM_repeat _ _ (Fin (w e))).
      + rewrite (filter_eqb_repeat e pairs) at 2. now rewrite !map_repeat.
      + rewrite get_map, Q. unfold get. rewrite nth_error_app2, Nat.sub_diag by lia. reflexivity.
    - replace (S (length E1)) with (length (E1 ++ [e])) by (rewrite app_length; cbn; lia).
      apply IH. rewrite Q, <- app_assoc. reflexivity. }
  apply (G [] E eq_refl).
Qed.
Lemma tour_cost_ok : forall E (w : nat * nat -> Qc) t, NoDup E -> incl (steps (t ++ firstn 1 t)) E ->
  tour_cost E (map (fun e => Fin (w e)) E) t = Some (Fin (qsum (map w (steps (t ++ firstn 1 t))))).
Proof.
  intros E w t N I. unfold tour_cost, tour_indices. rewrite tour_values. cbn [bind].
  rewrite py_sum_fin. do 2 f_equal. apply qsum_perm. apply Permutation_map.
  rewrite closing_pairs_steps. now apply gather_perm.
Qed.
Lemma tour_indices_range : forall E t, Forall (fun i => i < length E) (tour_indices E t).
Proof.
  intros E t. apply Forall_forall. intros i H. unfold tour_indices, enumerate in H.
  apply in_flat_map in H as ((j & e) & H1 & H2). apply repeat_spec in H2. cbn in H2; subst j.
  apply in_combine_l in H1. apply in_seq in H1. lia.
Qed.

(** ** [np.argmin] *)
Lemma argmin_from_range : forall l best m i, m < i -> argmin_from best m i l < i + length l.
Proof.
  induction l as [|x l IH]; intros best m i H; cbn; [lia|].
  destruct (np_less x best); eapply Nat.lt_le_trans; try (apply IH; lia); lia.
Qed.
Lemma argmin_range : forall l m, np_argmin l = Some m -> m < length l.
Proof.
  intros [|x l] m H; [discriminate|]. injection H as <-. cbn.
  apply (argmin_from_range l x 0 1). lia.
Qed.
Lemma argmin_total : forall l, l <> [] -> exists m, np_argmin l = Some m.
Proof. intros [|x l] H; [contradiction|]. cbn; eauto. Qed.
Lemma np_less_fin : forall a b, np_less (Fin a) (Fin b) = qltb a b.
Proof. reflexivity. Qed.
Lemma argmin_from_min : forall l done best m, get (done ++ l) m = Some best -> m < length done ->
  (forall x, In x done -> (best <= x)%Qc) ->
  exists v, get (done ++ l) (argmin_from (Fin best) m (length done) (map Fin l)) = Some v /\
    (forall x, In x (done ++ l) -> (v <= x)%Qc).
Proof.
  induction l as [|x l IH]; intros done best m G L M; cbn [map argmin_from].
  - rewrite app_nil_r in *. exists best; split; [exact G|exact M].
  - replace (length done + 1) with (length (done ++ [x])) by (rewrite app_length; cbn; lia).
    replace (done ++ x :: l) with ((done ++ [x]) ++ l) in * by (rewrite <- app_assoc; reflexivity).
    rewrite np_less_fin. destruct (qltb x best) eqn:Q.
    + apply qltb_true in Q. apply IH.
      * unfold get. rewrite nth_error_app1 by (rewrite app_length; cbn; lia).
        rewrite nth_error_app2, Nat.sub_diag by lia. reflexivity.
      * rewrite app_length; cbn; lia.
      * intros y Hy. apply in_app_iff in Hy as [Hy|[<-|[]]]; [specialize (M y Hy)|]; qlra.
    + apply qltb_false in Q. apply IH; [exact G|rewrite app_length; cbn; lia|].
      intros y Hy. apply in_app_iff in Hy as [Hy|[<-|[]]]; [exact (M y Hy)|exact Q].
Qed.
Lemma argmin_min : forall l, l <> [] -> exists m v, np_argmin (map Fin l) = Some m /\ get l m = Some v /\
  forall x, In x l -> (v <= x)%Qc.
Proof.
  intros [|x l] H; [contradiction|]. cbn [map np_argmin].
  destruct (argmin_from_min l [x] x 0 eq_refl) as (v & G & M); [cbn; lia|intros y [<-|[]]; qlra|].
  exists (argmin_from (Fin x) 0 1 (map Fin l)), v. auto.
Qed.

(** ** Missing nodes *)
Lemma best_combination_ok : forall (cost : nat -> option num) (f : nat -> Qc) nodes old,
  nodes <> [] -> (forall v, In v nodes -> cost v = Some (Fin (f v))) ->
  exists v, best_combination cost nodes old = Some (Fin (f v), Some v) /\ In v nodes /\
    forall u, In u nodes -> (f v <= f u)%Qc.
Proof.
  intros cost f [|x nodes] old H Hc; [contradiction|]. clear H.
  unfold best_combination. cbn [foldM]. rewrite Hc by now left. cbn [bind nlt fst].
  match goal with |- context [foldM ?b ?l ?s] => destruct (foldM_ind b (fun done st =>
    exists v, st = (Fin (f v), Some v) /\ In v (x :: done) /\ forall u, In u (x :: done) -> (f v <= f u)%Qc) l s)
    as (st & -> & v & -> & Hv & Hm) end.
  - exists x. split; [reflexivity|]. split; [now left|]. intros u [<-|[]]; qlra.
  - intros done a rest s El (v & -> & Hv & Hm). rewrite Hc by (rewrite El; right; apply in_or_app; right; now left).
    cbn [bind fst]. eexists; split; [reflexivity|]. cbn [nlt].
    destruct (qltb (f a) (f v)) eqn:Q.
    + apply qltb_true in Q. exists a. split; [reflexivity|]. split; [right; apply in_or_app; right; now left|].
      intros u [<-|Hu]; [specialize (Hm x (or_introl eq_refl)); qlra|].
      apply in_app_iff in Hu as [Hu|[<-|[]]]; [specialize (Hm u (or_intror Hu)); qlra|qlra].
    + apply qltb_false in Q. exists v. split; [reflexivity|]. split.
      { destruct Hv as [Hv|Hv]; [now left|right; apply in_or_app; now left]. }
      intros u [<-|Hu]; [exact (Hm x (or_introl eq_refl))|].
      apply in_app_iff in Hu as [Hu|[<-|[]]]; [exact (Hm u (or_intror Hu))|exact Q].
  - exists v; auto.
Qed.

Lemma last_get : forall h (t : list nat), get (h :: t) (length (h :: t) - 1) = Some (last (h :: t) 0).
Proof.
  intros h t. cbn [length]. replace (S (length t) - 1) with (length t) by lia. revert h.
  induction t as [|x t IH]; intros h; [reflexivity|]. exact (IH x).
Qed.
Lemma in_not_added : forall missing added v,
  In v (filter (fun v => negb (mem v added)) missing) <-> In v missing /\ ~ In v added.
Proof. intros; rewrite filter_In, negb_true_iff, mem_not_In. tauto. Qed.

Lemma last_in : forall (h : nat) t d, In (last (h :: t) d) (h :: t).
Proof.
  intros h t d; revert h; induction t as [|x t IH]; intros h; [now left|].
  change (last (h :: x :: t) d) with (last (x :: t) d). right. apply IH.
Qed.

Section Missing.
Variables (n : nat) (C : list (list Qc)).
Hypothesis SC : shape n n C.
Let w := qat C.

Lemma add_missing_ok : forall missing, NoDup missing -> Forall (fun v => v < n) missing ->
  forall fuel added cl cr h t, NoDup added -> incl added missing ->
    fuel = length missing - length added -> Forall (fun v => v < n) (h :: t) ->
  exists t', add_missing fuel (inj C) missing added cl cr (h :: t) = Some t' /\
    grown w (filter (fun v => negb (mem v added)) missing) (h :: t) t'.
Proof.
  intros missing Nm Rm fuel; induction fuel as [|fuel IH]; intros added cl cr h t Na Ia Hf Rt.
  - assert (L : length added = length missing).
    { pose proof (NoDup_incl_length Na Ia). lia. }
    unfold add_missing. rewrite L, Nat.eqb_refl. exists (h :: t). split; [reflexivity|].
    replace (filter _ missing) with (@nil nat); [constructor|].
    assert (I : incl missing added) by (apply NoDup_length_incl; auto; lia).
    symmetry. destruct (filter _ missing) as [|x l] eqn:Q; [reflexivity|].
    assert (X : In x (x :: l)) by now left. rewrite <- Q in X. apply in_not_added in X as (X & Y).
    destruct (Y (I _ X)).
  - cbn [add_missing]. destruct (length added =? length missing) eqn:L; [apply Nat.eqb_eq in L; lia|].
    set (todo := filter (fun v => negb (mem v added)) missing).
    assert (NT : todo <> []).
    { intros Q. assert (I : incl missing added).
      { intros x Hx. destruct (mem x added) eqn:M; [now apply mem_In in M|].
        assert (X : In x todo) by (apply in_not_added; split; [exact Hx|now apply mem_not_In]).
        rewrite Q in X; destruct X. }
      pose proof (NoDup_incl_length Nm I). lia. }
    assert (RT : forall v, In v todo -> v < n).
    { intros v Hv. apply in_not_added in Hv. exact (proj1 (Forall_forall _ _) Rm v (proj1 Hv)). }
    change (get (h :: t) 0) with (Some h). cbn [bind]. rewrite last_get. cbn [bind].
    assert (Rh : h < n) by (inversion Rt; auto).
    assert (Rl : last (h :: t) 0 < n) by (exact (proj1 (Forall_forall _ _) Rt _ (last_in h t 0))).
    destruct (best_combination_ok (fun v => get2 (inj C) v h) (fun v => w v h) todo cl NT) as (vl & -> & Il & Ml).
    { intros v Hv. apply (get2_inj n n); auto. }
    cbn [bind].
    destruct (best_combination_ok (fun v => get2 (inj C) (last (h :: t) 0) v) (fun v => w (last (h :: t) 0) v) todo cr NT)
      as (vr & -> & Ir & Mr).
    { intros v Hv. apply (get2_inj n n); auto. }
    cbn [bind np_argmin argmin_from]. rewrite np_less_fin.
    assert (ST : forall v, In v todo ->
      NoDup (added ++ [v]) /\ incl (added ++ [v]) missing /\ fuel = length missing - length (added ++ [v]) /\
      Permutation todo (v :: filter (fun x => negb (mem x (added ++ [v]))) missing)).
    { intros v Hv. pose proof Hv as Hv'. apply in_not_added in Hv' as (V1 & V2).
      assert (Na' : NoDup (added ++ [v])).
      { apply (Permutation_NoDup (l := v :: added)); [apply Permutation_cons_append|]. now constructor. }
      repeat split; auto.
      - intros x Hx. apply in_app_iff in Hx as [Hx|[<-|[]]]; auto.
      - rewrite app_length; cbn. lia.
      - apply NoDup_Permutation.
        + now apply NoDup_filter.
        + constructor; [|now apply NoDup_filter]. rewrite in_not_added. intros (_ & X). apply X.
          apply in_or_app; right; now left.
        + intros x. cbn [In]. unfold todo. rewrite !in_not_added, in_app_iff. cbn [In]. split.
          * intros (X & Y). destruct (Nat.eq_dec v x); [now left|right]. intuition.
          * intros [<-|(X & Y)]; [auto|]. intuition. }
    destruct (qltb _ _) eqn:Q.
    + apply qltb_true in Q. change (1 =? 0) with false. cbn [bind].
      destruct (ST vr Ir) as (A1 & A2 & A3 & A4).
      destruct (IH (added ++ [vr]) (Some vl) (Some vr) h (t ++ [vr]) A1 A2 A3) as (t' & E & G).
      { constructor; [exact Rh|]. apply Forall_app; split; [now inversion Rt|].
        constructor; [now apply RT|constructor]. }
      exists t'. split; [exact E|]. eapply grown_back; eauto.
      intros u Hu. specialize (Ml u Hu). eapply Qclt_le_trans; [exact Q|exact Ml].
    + apply qltb_false in Q. change (0 =? 0) with true. cbn [bind].
      destruct (ST vl Il) as (A1 & A2 & A3 & A4).
      destruct (IH (added ++ [vl]) (Some vl) (Some vr) vl (h :: t) A1 A2 A3) as (t' & E & G).
      { constructor; [now apply RT|exact Rt]. }
      exists t'. split; [exact E|]. eapply grown_front; eauto.
      intros u Hu. specialize (Mr u Hu). eapply Qcle_trans; [exact Q|exact Mr].
Qed.
Lemma add_missing_nodes_ok : forall missing tour, NoDup missing -> Forall (fun v => v < n) missing ->
  Forall (fun v => v < n) tour -> tour <> [] ->
  exists t', add_missing_nodes (inj C) tour missing = Some t' /\ grown w missing tour t'.
Proof.
  intros missing [|h t] Nm Rm Rt Nt; [contradiction|].
  destruct (add_missing_ok missing Nm Rm (length missing) [] None None h t) as (t' & E & G); auto.
  - constructor.
  - intros x [].
  - cbn; lia.
  - exists t'. split; [exact E|]. replace missing with (filter (fun v => negb (mem v [])) missing); [exact G|].
    clear. induction missing as [|x l IH]; [reflexivity|]. cbn. now f_equal.
Qed.
End Missing.
