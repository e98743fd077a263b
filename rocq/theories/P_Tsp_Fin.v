(** * TSP runs on complete graphs: everything stays finite and in range *)
From Coq Require Import Permutation.
From Verif Require Import Num NumFacts Arr ArrFacts Spec SpecGraph MinSum MinSumFacts.
From Verif Require Import M_Tsp_Constraints P_Tsp_Constraints P_Kc_Trellis P_Ksat M_Equality P_Equality.
From Verif Require Import M_Filter P_Filter M_InOut P_InOut M_Runs P_Runs.
From Verif Require Import M_Tsp_Loops P_Tsp_Loops M_Tsp_Run P_Tsp_Run.
Local Open Scope nat_scope.

Lemma two_length : forall (l : list nat) a b, In a l -> In b l -> a <> b -> 2 <= length l.
Proof.
  intros [|x [|y l]] a b Ha Hb N; cbn in *; [tauto| |lia].
  destruct Ha as [<-|[]], Hb as [<-|[]]; congruence.
Qed.
Lemma two_others : forall n u, 3 <= n -> u < n ->
  exists v w, v < n /\ w < n /\ v <> u /\ w <> u /\ v <> w.
Proof.
  intros n u Hn Hu. destruct u as [|[|u]]; [exists 1, 2|exists 0, 2|exists 0, 1]; lia.
Qed.
Lemma third_other : forall n u v, 3 <= n -> exists w, w < n /\ w <> u /\ w <> v.
Proof.
  intros n u v Hn.
  destruct (Nat.eq_dec u 0), (Nat.eq_dec v 0), (Nat.eq_dec u 1), (Nat.eq_dec v 1);
    first [exists 0; lia|exists 1; lia|exists 2; lia].
Qed.
Lemma eo_fin : forall m i v, 2 <= length m -> i < length m -> minsum_message exactly_one m i v ->
  exists q, v = Fin q.
Proof.
  intros m i v H Hi M. rewrite (minsum_message_unique _ _ _ _ _ M (exactly_one_message m i Hi)).
  destruct (nmins_Fin (remove_at i m)) as (q & -> & _); [|cbn; eauto].
  intros Q. pose proof (remove_at_length i m Hi) as L. rewrite Q in L. cbn in L. lia.
Qed.
Lemma alo_msg_fin : forall m i v, 2 <= length m -> i < length m -> minsum_message at_least_one m i v ->
  exists q, v = Fin q.
Proof.
  intros m i v H Hi M. rewrite (minsum_message_unique _ _ _ _ _ M (at_least_one_message m i Hi)).
  destruct (nmins_Fin (remove_at i m)) as (q & -> & _).
  - intros Q. pose proof (remove_at_length i m Hi) as L. rewrite Q in L. cbn in L. lia.
  - cbn [nopp]. unfold n0. destruct (nmin_Fin (- q) 0) as (z & -> & _); eauto.
Qed.

Lemma neqb_zero : forall q, neqb (Fin q) n0 = true -> q = 0%Qc.
Proof.
  intros q H; unfold n0, neqb, nlt in H. apply andb_prop in H as (A & B). apply negb_true_iff in A, B.
  unfold qltb in A, B. apply negb_false_iff in A, B. apply Qle_bool_iff in A, B.
  apply Qc_is_canon, Qle_antisym; assumption.
Qed.

Section Complete.
Variables (n : nat) (E : list (nat * nat)).
Hypothesis Hn : 3 <= n.
Hypothesis HE : complete n E.
Let e := length E.

Lemma complete_edges_in : edges_in n E.
Proof.
  apply Forall_forall; intros (u & v) H; apply (proj2 HE) in H; cbn; tauto.
Qed.
Lemma complete_no_self : no_self_loop E.
Proof. apply Forall_forall; intros (u & v) H; apply (proj2 HE) in H; cbn; tauto. Qed.
Lemma in_from : forall u i, In i (from_node E u) <-> exists v, get E i = Some (u, v).
Proof.
  intros u i; unfold from_node; rewrite filter_In, in_seq; split.
  - intros (Hi & Q). apply Nat.eqb_eq in Q. destruct (nth_error E i) as [(a & b)|] eqn:G.
    + rewrite (nth_error_nth E i (0, 0) G) in Q. cbn in Q; subst. exists b; exact G.
    + apply nth_error_None in G; lia.
  - intros (v & G). split; [split; [lia|]; cbn; apply nth_error_Some; unfold get in G; congruence|].
    rewrite (nth_error_nth E i (0, 0) G). apply Nat.eqb_refl.
Qed.
Lemma in_into : forall u i, In i (into_node E u) <-> exists v, get E i = Some (v, u).
Proof.
  intros u i; unfold into_node; rewrite filter_In, in_seq; split.
  - intros (Hi & Q). apply Nat.eqb_eq in Q. destruct (nth_error E i) as [(a & b)|] eqn:G.
    + rewrite (nth_error_nth E i (0, 0) G) in Q. cbn in Q; subst. exists a; exact G.
    + apply nth_error_None in G; lia.
  - intros (v & G). split; [split; [lia|]; cbn; apply nth_error_Some; unfold get in G; congruence|].
    rewrite (nth_error_nth E i (0, 0) G). apply Nat.eqb_refl.
Qed.
Lemma edge_index : forall u v, u < n -> v < n -> u <> v -> exists i, get E i = Some (u, v).
Proof.
  intros u v Hu Hv N. assert (I : In (u, v) E) by (apply (proj2 HE); auto).
  apply In_nth_error in I as (i & G). exists i; exact G.
Qed.
Lemma from_two : forall u, u < n -> 2 <= length (from_node E u).
Proof.
  intros u Hu. destruct (two_others n u Hn Hu) as (v & w & Hv & Hw & N1 & N2 & N3).
  destruct (edge_index u v) as (i & Gi); auto. destruct (edge_index u w) as (j & Gj); auto.
  apply (two_length _ i j); [apply in_from; eauto|apply in_from; eauto|]. intros ->; congruence.
Qed.
Lemma into_two : forall u, u < n -> 2 <= length (into_node E u).
Proof.
  intros u Hu. destruct (two_others n u Hn Hu) as (v & w & Hv & Hw & N1 & N2 & N3).
  destruct (edge_index v u) as (i & Gi); auto. destruct (edge_index w u) as (j & Gj); auto.
  apply (two_length _ i j); [apply in_into; eauto|apply in_into; eauto|]. intros ->; congruence.
Qed.
Lemma degree_fin : forall M out, finm e n M -> finm e n out ->
  exists out', degree_update n e E M out = Some out' /\ finm e n out'.
Proof.
  intros M out (Q & SQ & ->) FO.
  destruct (degree_update_ok e n Q E out) as (out' & Eq & So & Hf & Hi & Ho).
  - reflexivity.
  - exact SQ.
  - exact (finm_shape _ _ _ FO).
  - exact complete_no_self.
  - intros u Hu. pose proof (from_two u Hu); pose proof (into_two u Hu).
    split; intros Z; rewrite Z in *; cbn in *; lia.
  - exists out'; split; [exact Eq|]. apply finm_of; [exact So|]. intros i u Hi' Hu.
    destruct (in_dec Nat.eq_dec i (from_node E u)) as [I|NI].
    + apply In_nth_error in I as (pos & G). destruct (Hf u pos i Hu G) as (v & Gv & Mv).
      assert (Lp : pos < length (from_node E u)) by (apply nth_error_Some; congruence).
      destruct (eo_fin _ _ _ ltac:(rewrite map_length; exact (from_two u Hu)) ltac:(rewrite map_length; exact Lp) Mv) as (q & ->).
      eauto.
    + destruct (in_dec Nat.eq_dec i (into_node E u)) as [I|NI'].
      * apply In_nth_error in I as (pos & G). destruct (Hi u pos i Hu G) as (v & Gv & Mv).
        assert (Lp : pos < length (into_node E u)) by (apply nth_error_Some; congruence).
        destruct (eo_fin _ _ _ ltac:(rewrite map_length; exact (into_two u Hu)) ltac:(rewrite map_length; exact Lp) Mv) as (q & ->).
        eauto.
      * rewrite Ho by (tauto || auto). exact (finm_get _ _ _ _ _ FO Hi' Hu).
Qed.

(** a cut with an edge has two edges *)
Definition good_delta (d : list nat) : Prop := 2 <= length d /\ NoDup d /\ Forall (fun i => i < e) d.
Lemma delta_two : forall l, delta_S E l <> [] -> good_delta (delta_S E l).
Proof.
  intros l N. split; [|split; [apply delta_nodup|apply delta_range]].
  destruct (delta_S E l) as [|i0 d] eqn:Ed; [congruence|]. rewrite <- Ed. clear N.
  assert (I0 : In i0 (delta_S E l)) by (rewrite Ed; now left).
  pose proof I0 as I0'. apply in_delta in I0' as (u & v & G & Iu & Nv).
  assert (Huv : u < n /\ v < n /\ u <> v) by (apply (proj2 HE); exact (nth_error_In _ _ G)).
  destruct (third_other n u v Hn) as (w & Hw & N1 & N2).
  destruct (in_dec Nat.eq_dec w l) as [Iw|Nw].
  - destruct (edge_index w v) as (j & Gj); try tauto.
    apply (two_length _ i0 j); [exact I0|apply in_delta; exists w, v; auto|]. intros ->. unfold get in Gj; congruence.
  - destruct (edge_index u w) as (j & Gj); try tauto; auto.
    apply (two_length _ i0 j); [exact I0|apply in_delta; exists u, w; auto|]. intros ->. unfold get in Gj; congruence.
Qed.

Lemma subtour_fin : forall deltas M out, Forall good_delta deltas ->
  finm (length deltas) e M -> finm (length deltas) e out ->
  exists out', subtour_update e deltas M out = Some out' /\ finm (length deltas) e out'.
Proof.
  intros deltas M out Hd (Q & SQ & ->) FO.
  destruct (subtour_update_ok e (length deltas) Q deltas out) as (out' & Eq & So & Hi & Ho).
  - reflexivity.
  - exact SQ.
  - exact (finm_shape _ _ _ FO).
  - apply Forall_forall; intros d Id. rewrite Forall_forall in Hd. destruct (Hd d Id) as (A & B & C).
    split; [intros ->; cbn in A; lia|auto].
  - exists out'; split; [exact Eq|]. apply finm_of; [exact So|]. intros s i Hs Hi'.
    destruct (get_lt deltas s Hs) as (d & Gd).
    assert (Gdd : good_delta d) by (rewrite Forall_forall in Hd; apply Hd; exact (nth_error_In _ _ Gd)).
    destruct (in_dec Nat.eq_dec i d) as [I|NI].
    + apply In_nth_error in I as (pos & G). destruct (Hi s d pos i Gd G) as (v & Gv & Mv).
      assert (Lp : pos < length d) by (apply nth_error_Some; congruence).
      destruct (alo_msg_fin _ _ _ ltac:(rewrite map_length; exact (proj1 Gdd)) ltac:(rewrite map_length; exact Lp) Mv) as (q & ->).
      eauto.
    + rewrite (Ho s d i Gd NI). exact (finm_get _ _ _ _ _ FO Hs Hi').
Qed.
Lemma edge_sub_fin : forall deltas cq M Sub, Forall good_delta deltas -> length cq = e -> finm e n M ->
  finm (length deltas) e Sub ->
  exists out', edge_to_subtour e deltas (map Fin cq) M Sub E = Some out' /\ finm (length deltas) e out'.
Proof.
  intros deltas cq M Sub Hd Hc (Q & SQ & ->) (R & SR & ->).
  destruct (edge_to_subtour_ok e n (length deltas) Q R cq E deltas) as (X & Eq & SX & _); auto.
  - exact complete_edges_in.
  - apply Forall_forall; intros d Id. rewrite Forall_forall in Hd. apply (Hd d Id).
  - exists (inj X); split; [exact Eq|exists X; auto].
Qed.
Lemma edge_deg_relaxed_fin : forall C M out, finm e n C -> finm e n M -> finm e n out ->
  exists out', edge_to_degree_relaxed e E C M out = Some out' /\ finm e n out'.
Proof.
  intros C M out (CQ & SC & ->) (Q & SQ & ->) FO.
  destruct (edge_to_degree_relaxed_ok e n Q CQ E out) as (X & Eq & SX & _); auto.
  - exact (finm_shape _ _ _ FO).
  - exact complete_edges_in.
  - exact complete_no_self.
  - exists (inj X); split; [exact Eq|exists X; auto].
Qed.
Lemma edge_deg_augmented_fin : forall C M Sub S out, finm e n C -> finm e n M -> finm S e Sub -> finm e n out ->
  exists out', edge_to_degree_augmented e M Sub E C out = Some out' /\ finm e n out'.
Proof.
  intros C M Sub S out (CQ & SC & ->) (Q & SQ & ->) (R & SR & ->) FO.
  destruct (edge_to_degree_augmented_ok e n S Q R CQ E out) as (out' & Eq & So & H1 & H2); auto.
  - exact (finm_shape _ _ _ FO).
  - exact complete_edges_in.
  - exact complete_no_self.
  - exists out'; split; [exact Eq|]. apply finm_of; [exact So|]. intros i w Hi Hw.
    destruct (get_lt E i Hi) as ((u & v) & G). destruct (H1 i u v G) as (A & B).
    destruct (Nat.eq_dec w u) as [->|N1]; [eauto|]. destruct (Nat.eq_dec w v) as [->|N2]; [eauto|].
    rewrite (H2 i u v w G N1 N2). exact (finm_get _ _ _ _ _ FO Hi Hw).
Qed.
Lemma reset_fin : forall CM e2d, finm n n CM -> finm e n e2d ->
  exists e2d', reset_messages E CM e2d = Some e2d' /\ finm e n e2d'.
Proof.
  intros CM e2d FC FE. unfold reset_messages.
  match goal with |- context [for_up 0 ?k ?st0 ?bd] =>
    destruct (for_up_ind 0 k st0 bd (fun _ st => finm e n st)) as (st & Es & Hs) end.
  - lia.
  - exact FE.
  - intros i st Hi (X & SX & ->). destruct (get_lt E i) as ((u & v) & G); [lia|]. rewrite G; cbn [bind].
    assert (Huv : u < n /\ v < n /\ u <> v) by (apply (proj2 HE); exact (nth_error_In _ _ G)).
    destruct (finm_get _ _ _ u v FC) as (c & Gc); [lia|lia|]. rewrite Gc; cbn [bind].
    assert (Si : shape e n (inj X)) by (apply shape_inj; exact SX).
    rewrite (set2_lt e n) by (auto; unfold e; lia). cbn [bind].
    rewrite (set2_lt e n) by (try apply shape_upd2; auto; unfold e; lia).
    eexists; split; [reflexivity|].
    apply finm_of; [apply shape_upd2, shape_upd2; exact Si|].
    intros i' j Hi' Hj. rewrite (get2_upd2 e n) by (try apply shape_upd2; auto; unfold e; lia).
    destruct (_ && _); [eauto|]. rewrite (get2_upd2 e n) by (auto; unfold e; lia).
    destruct (_ && _); [eauto|]. rewrite (get2_inj e n) by auto. eauto.
  - exists st; auto.
Qed.
End Complete.

(** ** Whole runs *)
Section Run.
Variable p : tsp_params.
Let n := p_n p.
Let e := p_e p.
Let E := tsp_edges (p_in p).
Hypothesis Hn : 3 <= n.
Hypothesis HE : complete n E.
Hypothesis He : length E = e.
Hypothesis Ha : exists a, p_alpha p = Fin a.
Hypothesis Hce : finv e (tsp_cost_edge (p_in p)).
Hypothesis Hcm : finm n n (tsp_cost_matrix (p_in p)).
Hypothesis Hdc : finm e n (tsp_degree_cost (p_in p)).
Hypothesis Hed : finm e n (tsp_edge2degree (p_in p)).
Hypothesis Po : forall l, Permutation (p_ord p l) l.

Definition fin_msgs (S : nat) (m : tsp_msgs) : Prop :=
  finm e n (m_e2d m) /\ finm e n (m_deg_dummy m) /\ finm e n (m_deg_old m) /\ finm e n (m_deg m)
  /\ finm S e (m_sub m) /\ finm S e (m_sub_dummy m) /\ exists N, finm N e (m_sub_old m).
Definition fin_state (S : nat) (st : tsp_state) : Prop :=
  fin_msgs S (t_msgs st) /\ finv e (r_extr (t_sol st)) /\ finv e (r_intr (t_sol st))
  /\ (exists q, r_cost (t_sol st) = Fin q) /\ Forall (good_delta E) (a_deltas (t_an st)).

Lemma finm_app : forall a b k m1 m2, finm a k m1 -> finm b k m2 -> finm (a + b) k (m1 ++ m2).
Proof.
  intros a b k m1 m2 (Q1 & (L1 & F1) & ->) (Q2 & (L2 & F2) & ->). exists (Q1 ++ Q2). split.
  - split; [rewrite app_length; lia|apply Forall_app; auto].
  - unfold inj; symmetry; apply map_app.
Qed.
Lemma finm_no_nan : forall a k m, finm a k m -> existsb (existsb is_nan) m = false.
Proof.
  intros a k m (Q & _ & ->). unfold inj. induction Q as [|r Q IH]; cbn; [reflexivity|].
  rewrite IH, orb_false_r. clear. induction r as [|x r IH]; cbn; auto.
Qed.
Lemma finm_length : forall a k m, finm a k m -> length m = a.
Proof. intros a k m H; apply finm_shape in H; exact (proj1 H). Qed.

Lemma relaxed_step_fin : forall S m i, fin_msgs S m ->
  exists m', relaxed_step p m i = Some m' /\ fin_msgs S m'.
Proof.
  intros S m i (F1 & F2 & F3 & F4 & F5 & F6 & F7). destruct Ha as (al & Eal). unfold relaxed_step. fold e n E.
  pose proof He as He'. rewrite <- He' in F1, F2, F3, F4.
  destruct (degree_fin n E Hn HE _ _ F1 F2) as (dm & D1 & D2). rewrite <- He', D1. cbn [bind].
  rewrite Eal. destruct (filtering_fin (p_filt p) al i _ _ _ _ _ _ D2 F3 (finm_shape _ _ _ F4) (le_n _))
    as (deg & old & Pf & P1 & P2). rewrite Pf; cbn [bind].
  pose proof Hdc as Hdc'. rewrite <- He' in Hdc'.
  destruct (edge_deg_relaxed_fin n E HE _ _ _ Hdc' P1 F1) as (e2d & R1 & R2). rewrite R1; cbn [bind].
  eexists; split; [reflexivity|]. unfold fin_msgs; cbn. rewrite <- He'. rewrite <- He' in F5, F6, F7. auto 10.
Qed.
Lemma augmented_step_fin : forall deltas m i, Forall (good_delta E) deltas -> fin_msgs (length deltas) m ->
  (exists N, length deltas <= N /\ finm N e (m_sub_old m)) ->
  exists m', augmented_step p deltas m i = Some m' /\ fin_msgs (length deltas) m'
    /\ (exists N, length deltas <= N /\ finm N e (m_sub_old m')).
Proof.
  intros deltas m i Hd (F1 & F2 & F3 & F4 & F5 & F6 & _) (N & LN & F7). destruct Ha as (al & Eal).
  unfold augmented_step. fold e n E. cbn zeta.
  pose proof He as He'. rewrite <- He' in F1, F2, F3, F4, F5, F6, F7 |- *.
  destruct (degree_fin n E Hn HE _ _ F1 F2) as (dm & D1 & D2). rewrite D1. cbn [bind].
  rewrite Eal. destruct (filtering_fin (p_filt p) al i _ _ _ _ _ _ D2 F3 (finm_shape _ _ _ F4) (le_n _))
    as (deg & old & Pf & P1 & P2). rewrite Pf; cbn [bind].
  destruct Hce as (cq & Lc & Ec). rewrite Ec. rewrite <- He' in Lc.
  destruct (edge_sub_fin n E HE deltas cq deg (m_sub m) Hd Lc P1 F5) as (es & S1 & S2). rewrite S1; cbn [bind].
  destruct (subtour_fin n E Hn deltas es (m_sub_dummy m) Hd S2 F6) as (sd & T1 & T2). rewrite T1; cbn [bind].
  destruct (filtering_fin (p_filt p) al i _ _ _ _ _ _ T2 F7 (finm_shape _ _ _ F5) LN)
    as (sub & sold & Pf' & P3 & P4). rewrite Pf'; cbn [bind].
  pose proof Hdc as Hdc'. rewrite <- He' in Hdc'.
  destruct (edge_deg_augmented_fin n E HE _ _ _ _ _ Hdc' P1 P3 F1) as (e2d & R1 & R2). rewrite R1; cbn [bind].
  eexists; split; [reflexivity|]. unfold fin_msgs; cbn. rewrite <- He'. split; [|exists N; auto].
  repeat (split; [assumption|]). exists N; assumption.
Qed.

Lemma analyse_fin : forall sel a, Forall (good_delta E) (a_deltas a) ->
  exists a', analyse p sel a = Some a' /\ Forall (good_delta E) (a_deltas a')
    /\ length (a_deltas a) <= length (a_deltas a').
Proof.
  intros sel a Hd.
  assert (X : exists a', analyse p sel a = Some a').
  { unfold analyse. rewrite (loops_eq _ Po). cbn [bind].
    destruct (keep_loops _) as [|h rest] eqn:K; [eauto|].
    destruct (_ && _) eqn:C; [|eauto].
    apply andb_prop in C as (_ & C). apply Nat.eqb_eq in C. destruct (get_lt h 0) as (x & ->); [fold n in C; lia|].
    cbn [bind]; eauto. }
  destruct X as (a' & A). exists a'; split; [exact A|].
  destruct (analyse_inv _ _ _ _ A) as (loops & _ & _ & [_ Dl _ _ _ _ _ _|h _ _ Dl _ _ _ _ _ _|_ _ Dl _ _ _ _ _ _]).
  - rewrite Dl; auto.
  - rewrite Dl; auto.
  - rewrite Dl. destruct (add_all_spec (tsp_edges (p_in p)) loops (a_deltas a)) as ((new & S1) & S2 & _). split.
    + apply Forall_forall; intros d I. apply S2 in I as [I|(N & l & Il & ->)].
      * rewrite Forall_forall in Hd; auto.
      * apply (delta_two n); auto.
    + rewrite S1, app_length; lia.
Qed.

Lemma decide_fin : forall intr, finv e intr -> exists sel cost,
  select_edges e (hard_decision (p_thr p) intr) E = Some sel
  /\ selection_cost (hard_decision (p_thr p) intr) (tsp_cost_edge (p_in p)) = Some (Fin cost).
Proof.
  intros intr Hi. pose proof (finv_length _ _ Hi) as Li. destruct Hce as (cq & Lc & Ec). rewrite Ec.
  eexists _, _. split; [apply (select_ok _ _ _ e Li He)|apply (cost_ok _ _ _ e Li Lc)].
Qed.

Lemma for_up_inv : forall {A} (P : A -> Prop) k (f : A -> nat -> option A) s, P s ->
  (forall s i, P s -> exists s', f s i = Some s' /\ P s') -> exists s', for_up 0 k s f = Some s' /\ P s'.
Proof.
  intros A P k f s Hs Hf. destruct (for_up_ind 0 k s f (fun _ s => P s)) as (s' & Es & Hs'); [lia|exact Hs| |eauto].
  intros i s0 _ H0. destruct (Hf s0 i H0) as (s1 & ? & ?); eauto.
Qed.

Lemma relaxed_fin : exists st, iterate_relaxed p (tsp_init p) = Some st /\ fin_state 0 st.
Proof.
  unfold iterate_relaxed. fold e n E.
  destruct (for_up_inv (fin_msgs 0) (p_iters p) (relaxed_step p) (t_msgs (tsp_init p))) as (m & Em & Fm).
  { unfold fin_msgs; cbn. fold e n. do 4 (split; [auto using finm_zeros|]).
    split; [exists []; split; [split; [reflexivity|constructor]|reflexivity]|].
    split; [exists []; split; [split; [reflexivity|constructor]|reflexivity]|].
    exists 0, []; split; [split; [reflexivity|constructor]|reflexivity]. }
  { intros; now apply relaxed_step_fin. }
  rewrite Em; cbn [bind].
  pose proof Fm as (_ & _ & _ & (Q & SQ & EQ) & _).
  destruct (extrinsic_relaxed_ok e n Q (r_extr (t_sol (tsp_init p))) SQ) as (x & Ex & Lx & _);
    [cbn; apply repeat_length|]. rewrite EQ, Ex; cbn [bind].
  destruct Hce as (cq & Lc & Ec).
  destruct (intrinsic_output_ok e x cq (r_intr (t_sol (tsp_init p))) Lx Lc) as (y & Ey & Ly & _);
    [cbn; apply repeat_length|].
  assert (Fy : finv e (map Fin y)) by (exists y; auto). destruct (decide_fin _ Fy) as (sel & cost & D1 & D2).
  rewrite Ec in D2. rewrite Ec, Ey; cbn [bind]. rewrite D1; cbn [bind]. rewrite D2; cbn [bind].
  destruct (analyse_fin sel (t_an (tsp_init p))) as (a & A1 & A2 & _); [constructor|]. rewrite A1; cbn [bind].
  eexists; split; [reflexivity|]. split; [exact Fm|]. cbn. split; [exists x; auto|].
  split; [exact Fy|]. eauto.
Qed.
Lemma grow_fin : forall S st, fin_state S st -> S <= length (a_deltas (t_an st)) ->
  fin_state (length (a_deltas (t_an st))) (grow p st).
Proof.
  intros S st ((F1 & F2 & F3 & F4 & F5 & F6 & F7) & G) L. unfold grow.
  pose proof (finm_length _ _ _ F5) as L5. rewrite L5. destruct (Nat.eqb_spec S (length (a_deltas (t_an st)))) as [Q|Q].
  - rewrite <- Q. split; [unfold fin_msgs|]; auto 10.
  - split; [|exact G]. unfold fin_msgs; cbn [set_msgs t_msgs extend_sub m_e2d m_deg_dummy m_deg_old m_deg m_sub m_sub_dummy m_sub_old].
    assert (X : finm (length (a_deltas (t_an st))) e
      (m_sub (t_msgs st) ++ zeros (length (a_deltas (t_an st)) - S) (p_e p))).
    { replace (length (a_deltas (t_an st))) with (S + (length (a_deltas (t_an st)) - S)) at 1 by lia.
      apply finm_app; [exact F5|apply finm_zeros]. }
    auto 10.
Qed.
Lemma augmented_fin : forall st, fin_state (length (a_deltas (t_an st))) st ->
  exists st', iterate_augmented p st = Some (Returned st')
    /\ fin_state (length (a_deltas (t_an st))) st'
    /\ length (a_deltas (t_an st)) <= length (a_deltas (t_an st')).
Proof.
  intros st ((F1 & F2 & F3 & F4 & F5 & F6 & (N & F7)) & Fx & Fi & _ & Gd). unfold iterate_augmented. fold e n E.
  set (deltas := a_deltas (t_an st)) in *.
  assert (R : exists e2d, (if p_reset p then reset_messages E (tsp_cost_matrix (p_in p)) (m_e2d (t_msgs st))
    else Some (m_e2d (t_msgs st))) = Some e2d /\ finm e n e2d).
  { destruct (p_reset p); [|eauto]. rewrite <- He. apply (reset_fin n); auto. rewrite He; exact F1. }
  destruct R as (e2d & R1 & R2). rewrite R1; cbn [bind].
  match goal with |- context [for_up 0 _ ?m0 _] =>
    destruct (for_up_inv (fun m => fin_msgs (length deltas) m
      /\ (exists N, length deltas <= N /\ finm N e (m_sub_old m))) (p_iters p)
      (augmented_step p deltas) m0) as (m & Em & Fm & _) end.
  { assert (X : finm (N + length deltas) e (m_sub_old (t_msgs st) ++ zeros (length deltas) e))
      by (apply finm_app; [exact F7|apply finm_zeros]).
    split; [unfold fin_msgs; cbn; eauto 10|]. exists (N + length deltas); split; [lia|exact X]. }
  { intros m i (H1 & H2). destruct (augmented_step_fin deltas m i Gd H1 H2) as (m' & ? & ? & ?); eauto. }
  rewrite Em; cbn [bind]. pose proof Fm as (M1 & _ & _ & (Q & SQ & EQ) & (Q' & SQ' & EQ') & _).
  rewrite (finm_no_nan _ _ _ M1).
  destruct (extrinsic_augmented_ok e n _ Q Q' (r_extr (t_sol st)) SQ SQ') as (x & Ex & Lx & _);
    [exact (finv_length _ _ Fx)|]. rewrite EQ, EQ', Ex; cbn [bind].
  destruct Hce as (cq & Lc & Ec).
  destruct (intrinsic_output_ok e x cq (r_intr (t_sol st)) Lx Lc) as (y & Ey & Ly & _);
    [exact (finv_length _ _ Fi)|].
  assert (Fy : finv e (map Fin y)) by (exists y; auto). destruct (decide_fin _ Fy) as (sel & cost & D1 & D2).
  rewrite Ec in D2. rewrite Ec, Ey; cbn [bind]. rewrite D1; cbn [bind]. rewrite D2; cbn [bind].
  destruct (analyse_fin sel (t_an st) Gd) as (a & A1 & A2 & A3). rewrite A1; cbn [bind].
  eexists; split; [reflexivity|]. split; [|exact A3]. split; [exact Fm|]. cbn. split; [exists x; auto|].
  split; [exact Fy|]. eauto.
Qed.

Lemma history_fin : forall st l, history p (st :: l) ->
  exists S, fin_state S st /\ S <= length (a_deltas (t_an st)).
Proof.
  intros st l H. remember (st :: l) as hs eqn:Q. revert st l Q.
  induction H as [st0 R|st0 st1 l0 H IH C R]; intros st l Q; injection Q as <- <-.
  - destruct relaxed_fin as (st & R1 & R2). assert (st = st0) by congruence. subst. exists 0; split; [exact R2|lia].
  - destruct (IH _ _ eq_refl) as (S & F & L). pose proof (grow_fin _ _ F L) as G.
    destruct (grow_fields p st0) as (_ & G2 & _).
    rewrite <- G2 in G. destruct (augmented_fin _ G) as (st & R1 & R2 & R3).
    assert (st = st1) by congruence. subst. eauto.
Qed.
(** no read or write out of range, no [exit] because of a NaN: the only early exit is the one for
    a selection of zero cost *)
Definition zero_cost_reached : Prop :=
  exists st l, history p (st :: l) /\ r_cost (t_sol st) = n0 /\ a_tour_flag (t_an st) = false.
Lemma loop_total : forall max fuel st l, history p (st :: l) ->
  exists o, augmentation_loop fuel p max (grow p st) = Some o /\ (o = Exited -> zero_cost_reached).
Proof.
  intros max; induction fuel as [|fuel IH]; intros st l H; cbn [augmentation_loop].
  all: destruct (grow_fields p st) as (G1 & G2 & G3); rewrite G1, G2, G3.
  all: destruct (a_satisfied (t_an st)) eqn:C1; cbn [negb andb]; [eexists; split; [reflexivity|discriminate]|].
  all: destruct (p_aug p) eqn:C2; cbn [negb andb]; [|eexists; split; [reflexivity|discriminate]].
  all: destruct (a_tour_flag (t_an st)) eqn:C3; cbn [negb]; [eexists; split; [reflexivity|discriminate]|].
  all: destruct (a_nocons_flag (t_an st)) eqn:C4; cbn [orb]; [eexists; split; [reflexivity|discriminate]|].
  all: destruct (c_noimp_flag (t_cnt st)) eqn:C5; cbn [orb]; [eexists; split; [reflexivity|discriminate]|].
  all: destruct (c_osc_flag (t_cnt st)) eqn:C6; [eexists; split; [reflexivity|discriminate]|].
  all: destruct (history_fin _ _ H) as (S & F & L).
  all: destruct (neqb (r_cost (t_sol st)) n0) eqn:C7.
  1,3: exists Exited; split; [reflexivity|]; intros _; exists st, l; split; [exact H|]; split; [|exact C3];
       destruct F as (_ & _ & _ & (q & Eq) & _); rewrite Eq in *; rewrite (neqb_zero _ C7); reflexivity.
  - eexists; split; [reflexivity|discriminate].
  - pose proof (grow_fin _ _ F L) as G. rewrite <- G2 in G.
    destruct (augmented_fin _ G) as (st1 & R1 & R2 & R3). rewrite R1; cbn [bind].
    assert (H1 : history p (st1 :: st :: l)) by (constructor; [exact H|repeat split; assumption|exact R1]).
    destruct (_ =? max)%Z; [eexists; split; [reflexivity|discriminate]|].
    fold (grow p st1). exact (IH _ _ H1).
Qed.
Lemma solve_total : forall fuel max,
  exists o, tsp_solve fuel p max = Some o /\ (o = Exited -> zero_cost_reached).
Proof.
  intros fuel max; unfold tsp_solve. destruct relaxed_fin as (st & R & _). rewrite R; cbn [bind].
  destruct (negb _ && _); [|eexists; split; [reflexivity|discriminate]].
  rewrite perform_grow by (exact (relaxed_sub _ _ R)). apply (loop_total _ _ st []). now constructor.
Qed.
Lemma solve_fin : forall fuel max st,
  tsp_solve fuel p max = Some (Returned st) \/ tsp_solve fuel p max = Some (Running st) ->
  exists S, fin_state S st /\ S <= length (a_deltas (t_an st)).
Proof.
  intros fuel max st H.
  assert (G : exists l st0, history p (st0 :: l) /\ (st = st0 \/ st = grow p st0)).
  { destruct H as [H|H]; pose proof (solve_history _ _ _ _ H) as G; cbn in G;
      [destruct G as (l & st0 & A & [(B & _)|B]); exists l, st0; auto|].
    destruct G as (l & st0 & A & B & _); eauto. }
  destruct G as (l & st0 & A & B). destruct (history_fin _ _ A) as (S & F & L).
  destruct B as [->|B]; [eauto|]. exists (length (a_deltas (t_an st0))). destruct (grow_fields p st0) as (_ & G2 & _).
  rewrite B. split; [exact (grow_fin _ _ F L)|]. now rewrite G2.
Qed.
End Run.
