(** * TSP post-processing: trimming the selected edges and collecting paths *)
From Coq Require Import Permutation.
From Verif Require Import Num NumFacts Arr ArrFacts Spec SpecGraph SpecTour P_Ksat P_Equality P_Runs.
From Verif Require Import M_InOut M_Tsp_Loops M_Tsp_Run P_Tsp_Run M_Tsp_Py M_Ksat_Py P_Ksat_Py M_Tsp_Post P_Tsp_Tour.
Local Open Scope nat_scope.

(** at most one edge into and out of every node *)
Definition linear (R : list (nat * nat)) : Prop :=
  (forall u v v', In (u, v) R -> In (u, v') R -> v = v') /\ (forall u u' v, In (u, v) R -> In (u', v) R -> u = u').
(** no edge of [R] leaves [u] *)
Definition sink (R : list (nat * nat)) (u : nat) : Prop := forall v, ~ In (u, v) R.

(** ** The graph of a list of edges *)
Definition ins (R : list (nat * nat)) (u : nat) : list nat := map fst (filter (fun e => snd e =? u) R).
Definition outs (R : list (nat * nat)) (u : nat) : list nat := map snd (filter (fun e => fst e =? u) R).
Lemma in_ins : forall R u v, In u (ins R v) <-> In (u, v) R.
Proof.
  intros R u v. unfold ins. rewrite in_map_iff. split.
  - intros ((a & b) & Q & H). cbn in Q. subst a. apply filter_In in H as (H & Q). apply Nat.eqb_eq in Q. cbn in Q. now subst.
  - intros H. exists (u, v). split; [reflexivity|]. apply filter_In. split; [exact H|apply Nat.eqb_refl].
Qed.
Lemma in_outs : forall R u v, In v (outs R u) <-> In (u, v) R.
Proof.
  intros R u v. unfold outs. rewrite in_map_iff. split.
  - intros ((a & b) & Q & H). cbn in Q. subst b. apply filter_In in H as (H & Q). apply Nat.eqb_eq in Q. cbn in Q. now subst.
  - intros H. exists (u, v). split; [reflexivity|]. apply filter_In. split; [exact H|apply Nat.eqb_refl].
Qed.

Definition keys (g : graph) : list nat := map fst g.
Definition gget (g : graph) (k : nat) : list nat * list nat :=
  match g_find g k with Some io => io | None => ([], []) end.
Lemma g_find_key : forall g k, In k (keys g) -> g_find g k = Some (gget g k).
Proof.
  intros g k H. unfold gget. destruct (g_find g k) eqn:Q; [reflexivity|]. exfalso.
  induction g as [|(k' & io) g IH]; [destruct H|]. cbn in Q. destruct (k' =? k) eqn:E; [discriminate|].
  apply Nat.eqb_neq in E. destruct H as [H|H]; [contradiction|auto].
Qed.
Lemma g_find_none : forall g k, ~ In k (keys g) -> g_find g k = None.
Proof.
  intros g k H. induction g as [|(k' & io) g IH]; [reflexivity|]. cbn in *. destruct (k' =? k) eqn:E.
  - apply Nat.eqb_eq in E. tauto.
  - apply IH. tauto.
Qed.
Lemma add_out_keys : forall g u v k, In k (keys (add_out g u v)) <-> k = u \/ In k (keys g).
Proof.
  intros g u v k; induction g as [|(k' & (i & o)) g IH]; cbn; [intuition|].
  destruct (k' =? u) eqn:E; cbn; [apply Nat.eqb_eq in E; intuition|]. unfold keys in IH. rewrite IH. intuition.
Qed.
Lemma add_in_keys : forall g u v k, In k (keys (add_in g v u)) <-> k = v \/ In k (keys g).
Proof.
  intros g u v k; induction g as [|(k' & (i & o)) g IH]; cbn; [intuition|].
  destruct (k' =? v) eqn:E; cbn; [apply Nat.eqb_eq in E; intuition|]. unfold keys in IH. rewrite IH. intuition.
Qed.
Lemma add_out_nodup : forall g u v, NoDup (keys g) -> NoDup (keys (add_out g u v)).
Proof.
  intros g u v; induction g as [|(k' & (i & o)) g IH]; intros H; cbn; [repeat constructor; intros []|].
  inversion H as [|? ? N1 N2]; subst. destruct (k' =? u) eqn:E; cbn; [now constructor|].
  constructor; [|now apply IH]. intros I. apply add_out_keys in I as [->|I]; [rewrite Nat.eqb_refl in E; discriminate|auto].
Qed.
Lemma add_in_nodup : forall g u v, NoDup (keys g) -> NoDup (keys (add_in g v u)).
Proof.
  intros g u v; induction g as [|(k' & (i & o)) g IH]; intros H; cbn; [repeat constructor; intros []|].
  inversion H as [|? ? N1 N2]; subst. destruct (k' =? v) eqn:E; cbn; [now constructor|].
  constructor; [|now apply IH]. intros I. apply add_in_keys in I as [->|I]; [rewrite Nat.eqb_refl in E; discriminate|auto].
Qed.
Lemma add_out_get : forall g u v k,
  gget (add_out g u v) k = if u =? k then (fst (gget g k), snd (gget g k) ++ [v]) else gget g k.
Proof.
  intros g u v k; induction g as [|(k' & (i & o)) g IH]; unfold gget in *; cbn.
  - destruct (u =? k); reflexivity.
  - destruct (k' =? u) eqn:E; cbn; destruct (k' =? k) eqn:E2.
    + apply Nat.eqb_eq in E, E2; subst. rewrite Nat.eqb_refl. reflexivity.
    + apply Nat.eqb_eq in E; subst. rewrite E2. reflexivity.
    + apply Nat.eqb_eq in E2; subst. rewrite (Nat.eqb_sym u k), E. reflexivity.
    + exact IH.
Qed.
Lemma add_in_get : forall g u v k,
  gget (add_in g v u) k = if v =? k then (fst (gget g k) ++ [u], snd (gget g k)) else gget g k.
Proof.
  intros g u v k; induction g as [|(k' & (i & o)) g IH]; unfold gget in *; cbn.
  - destruct (v =? k); reflexivity.
  - destruct (k' =? v) eqn:E; cbn; destruct (k' =? k) eqn:E2.
    + apply Nat.eqb_eq in E, E2; subst. rewrite Nat.eqb_refl. reflexivity.
    + apply Nat.eqb_eq in E; subst. rewrite E2. reflexivity.
    + apply Nat.eqb_eq in E2; subst. rewrite (Nat.eqb_sym v k), E. reflexivity.
    + exact IH.
Qed.

Lemma construct_graph_ok : forall R,
  NoDup (keys (construct_graph R)) /\
  (forall k, In k (keys (construct_graph R)) <-> exists x, In (k, x) R \/ In (x, k) R) /\
  (forall k, gget (construct_graph R) k = (ins R k, outs R k)).
Proof.
  intros R. induction R as [|(u & v) R IH] using rev_ind.
  - cbn. split; [constructor|]. split; [|reflexivity]. intros k; split; [intros []|intros (x & [[]|[]])].
  - unfold construct_graph in *. rewrite fold_left_app. cbn [fold_left fst snd].
    destruct IH as (N & K & G). split; [|split].
    + now apply add_in_nodup, add_out_nodup.
    + intros k. rewrite add_in_keys, add_out_keys, K. split.
      * intros [->|[->|(x & H)]].
        -- exists u. right. apply in_or_app; right; now left.
        -- exists v. left. apply in_or_app; right; now left.
        -- exists x. rewrite !in_app_iff. tauto.
      * intros (x & H). rewrite !in_app_iff in H. cbn in H.
        destruct H as [[H|[H|[]]]|[H|[H|[]]]]; [|injection H as -> ->; auto| |injection H as -> ->; auto];
          right; right; exists x; auto.
    + intros k. rewrite add_in_get, add_out_get, G. unfold ins, outs.
      rewrite !filter_app, !map_app. cbn [filter fst snd].
      destruct (u =? k), (v =? k); cbn [fst snd map]; rewrite ?app_nil_r; reflexivity.
Qed.
Lemma graph_entry : forall R k io, In (k, io) (construct_graph R) -> io = (ins R k, outs R k).
Proof.
  intros R k io H. destruct (construct_graph_ok R) as (N & _ & G). rewrite <- G.
  revert N H. generalize (construct_graph R). clear. unfold gget.
  induction g as [|(k' & io') g IH]; intros N H; [destruct H|]. inversion N as [|? ? N1 N2]; subst. cbn.
  destruct H as [H|H].
  - injection H as -> ->. now rewrite Nat.eqb_refl.
  - destruct (k' =? k) eqn:E; [|auto]. apply Nat.eqb_eq in E; subst. exfalso. apply N1.
    apply (in_map fst) in H. exact H.
Qed.
Lemma graph_find : forall R k, In k (keys (construct_graph R)) ->
  g_find (construct_graph R) k = Some (ins R k, outs R k).
Proof. intros R k H. rewrite g_find_key by exact H. now rewrite (proj2 (proj2 (construct_graph_ok R))). Qed.

(** ** Trimming *)
Lemma edge_index_from_ok : forall E e i j, edge_index_from i E e = Some j -> i <= j /\ get E (j - i) = Some e.
Proof.
  induction E as [|x E IH]; intros e i j H; [discriminate|]. cbn in H. destruct (edge_eqb x e) eqn:Q.
  - injection H as <-. apply edge_eqb_iff in Q; subst. split; [lia|]. now rewrite Nat.sub_diag.
  - apply IH in H as (L & H). split; [lia|]. replace (j - i) with (S (j - (i + 1))) by lia. exact H.
Qed.
Lemma edge_index_ok : forall E e j, edge_index E e = Some j -> get E j = Some e.
Proof. intros E e j H. apply edge_index_from_ok in H as (_ & H). now rewrite Nat.sub_0_r in H. Qed.
Lemma edge_index_total : forall E e, In e E -> exists j, edge_index E e = Some j.
Proof.
  intros E e H. unfold edge_index. generalize 0. induction E as [|x E IH]; intros i; [destruct H|]. cbn.
  destruct (edge_eqb x e) eqn:Q; [eauto|]. destruct H as [->|H]; [now rewrite edge_eqb_refl in Q|]. now apply IH.
Qed.
Lemma mapM_in : forall {A B} (f : A -> option B) l r y, mapM f l = Some r -> In y r -> exists x, In x l /\ f x = Some y.
Proof.
  intros A B f l; induction l as [|a l IH]; intros r y H I; cbn in H.
  - injection H as <-; destruct I.
  - apply bind_Some in H as (b & Hb & H). apply bind_Some in H as (bs & Hbs & H). injection H as <-.
    destruct I as [<-|I]; [exists a; split; [now left|exact Hb]|].
    destruct (IH _ _ Hbs I) as (x & Ix & Hx). exists x. split; [now right|exact Hx].
Qed.
Lemma weakest_in : forall E intr idx e, weakest E intr idx = Some e -> exists i, In i idx /\ get E i = Some e.
Proof.
  intros E intr idx e H. unfold weakest in H. apply bind_Some in H as (vals & _ & H).
  apply bind_Some in H as (m & _ & H). apply bind_Some in H as (i & Hi & H).
  exists i. split; [|exact H]. now apply nth_error_In in Hi.
Qed.
Lemma weakest_total : forall E intr idx, length intr = length E -> idx <> [] -> Forall (fun i => i < length E) idx ->
  exists e, weakest E intr idx = Some e.
Proof.
  intros E intr idx L N F. unfold weakest. rewrite Forall_forall in F.
  destruct (mapM_all (get intr) idx) as (vals & -> & Lv & _); [intros i Hi; apply get_lt; rewrite L; auto|]. cbn [bind].
  destruct (argmin_total (map nabs vals)) as (m & Q).
  { intros Q. apply N, length_zero_iff_nil. rewrite <- Lv, <- (map_length nabs), Q. reflexivity. }
  rewrite Q. cbn [bind]. apply argmin_range in Q. rewrite map_length, Lv in Q.
  destruct (get_lt idx m Q) as (i & Hi). rewrite Hi. cbn [bind]. apply get_lt, F.
  now apply nth_error_In in Hi.
Qed.

Lemma filter_length_le1 : forall {A} (f : A -> bool) (l sub : list A), NoDup sub -> incl sub l ->
  (forall x, In x sub -> f x = false) -> length (filter f l) + length sub <= length l.
Proof.
  intros A f l sub N I H. destruct (take_out sub l N I) as (r & P).
  assert (Q : forall l1 l2 : list A, Permutation l1 l2 -> length (filter f l1) = length (filter f l2)).
  { intros l1 l2 X; induction X as [|x l1 l2 _ IH|x y l0|l1 l2 l3 _ IH1 _ IH2]; cbn; try lia.
    - destruct (f x); cbn; lia.
    - destruct (f x), (f y); reflexivity. }
  rewrite (Q _ _ P), (Permutation_length P), app_length, filter_app, app_length.
  assert (Z : filter f sub = []).
  { clear -H. induction sub as [|x s IH]; [reflexivity|]. cbn. rewrite (H x (or_introl eq_refl)). apply IH. intros; apply H; now right. }
  rewrite Z. cbn. assert (X : length (filter f r) <= length r).
  { clear. induction r as [|x r IH]; [cbn; lia|]. cbn. destruct (f x); cbn; lia. }
  lia.
Qed.

Definition kept (removed conns : list (nat * nat)) := filter (fun e => negb (edge_mem e removed)) conns.
Lemma in_kept : forall removed conns e, In e (kept removed conns) <-> In e conns /\ ~ In e removed.
Proof. intros; unfold kept; rewrite filter_In, negb_true_iff, edge_mem_out. tauto. Qed.
Lemma kept_mono : forall removed removed' conns, incl removed removed' ->
  length (kept removed' conns) <= length (kept removed conns).
Proof.
  intros r r' conns I. unfold kept. induction conns as [|x l IH]; [cbn; lia|]. cbn.
  destruct (edge_mem x r) eqn:Q1, (edge_mem x r') eqn:Q2; cbn; try lia.
  apply edge_mem_In in Q1. apply edge_mem_out in Q2. destruct (Q2 (I _ Q1)).
Qed.

Lemma trim_ok : forall E intr conns, NoDup conns -> forall fuel per removed removed',
  NoDup per -> incl per conns -> incl per removed ->
  trim fuel E intr conns per removed = Some removed' ->
  incl removed removed' /\ incl removed' (removed ++ conns) /\ length (kept removed' conns) <= 1.
Proof.
  intros E intr conns Nc fuel; induction fuel as [|fuel IH]; intros per removed removed' Np Ip Ir H;
    cbn [trim] in H; destruct (1 <? length conns - length per) eqn:Q; try discriminate.
  1, 3: injection H as <-; apply Nat.ltb_ge in Q; repeat split;
    [apply incl_refl|apply incl_appl, incl_refl|]; unfold kept;
    pose proof (filter_length_le1 (fun e => negb (edge_mem e removed)) conns per Np Ip) as X;
    assert (Y : forall x, In x per -> negb (edge_mem x removed) = false)
      by (intros x Hx; apply negb_false_iff, edge_mem_In; auto);
    specialize (X Y); lia.
  apply bind_Some in H as (idx & Hi & H). destruct (nonempty idx) eqn:Ne.
  - apply bind_Some in H as (e & He & H). apply weakest_in in He as (i & Ii & He).
    destruct (mapM_in _ _ _ _ Hi Ii) as (e' & Ie' & Hx). apply edge_index_ok in Hx.
    rewrite He in Hx. injection Hx as <-. apply in_kept in Ie' as (Ie & Nr).
    assert (Nper : edge_mem e per = false) by (apply edge_mem_out; auto).
    rewrite Nper, (proj2 (edge_mem_out e removed) Nr) in H.
    apply IH in H as (A & B & D).
    + repeat split.
      * intros x Hx; apply A, in_or_app; now left.
      * intros x Hx. apply B in Hx. rewrite !in_app_iff in *. destruct Hx as [[Hx|[<-|[]]]|Hx]; auto.
      * exact D.
    + apply edge_mem_out in Nper. apply (Permutation_NoDup (l := e :: per)); [apply Permutation_cons_append|now constructor].
    + intros x Hx. apply in_app_iff in Hx as [Hx|[<-|[]]]; auto.
    + intros x Hx. apply in_app_iff in Hx as [Hx|[<-|[]]]; apply in_or_app; [left; auto|right; now left].
  - injection H as <-. repeat split; [apply incl_refl|apply incl_appl, incl_refl|].
    apply mapM_length in Hi. unfold nonempty in Ne. apply negb_false_iff, Nat.eqb_eq in Ne. unfold kept. lia.
Qed.
Lemma trim_total : forall E intr conns, length intr = length E -> incl conns E -> NoDup conns ->
  forall fuel per removed, length conns - length per <= fuel ->
  incl per removed -> exists removed', trim fuel E intr conns per removed = Some removed'.
Proof.
  intros E intr conns L IE Nc fuel; induction fuel as [|fuel IH]; intros per removed Hf Ir; cbn [trim].
  - destruct (1 <? length conns - length per) eqn:Q; [apply Nat.ltb_lt in Q; lia|eauto].
  - destruct (1 <? length conns - length per) eqn:Q; [|eauto]. apply Nat.ltb_lt in Q.
    destruct (mapM_all (edge_index E) (filter (fun e => negb (edge_mem e removed)) conns)) as (idx & -> & _ & I).
    { intros e He. apply edge_index_total, IE. now apply filter_In in He. }
    cbn [bind]. destruct (nonempty idx) eqn:Ne; [|eauto]. apply nonempty_iff in Ne.
    destruct (weakest_total E intr idx L Ne) as (e & He).
    { apply Forall_forall. intros i Hi. apply I in Hi as (x & _ & Hx). apply edge_index_ok in Hx. now apply get_Some_lt in Hx. }
    rewrite He. cbn [bind].
    assert (Nper : edge_mem e per = false /\ edge_mem e removed = false).
    { apply weakest_in in He as (i & Ii & He). apply I in Ii as (e' & Ie' & Hx). apply edge_index_ok in Hx.
      rewrite He in Hx. injection Hx as <-. apply in_kept in Ie' as (_ & Nr). rewrite !edge_mem_out. auto. }
    destruct Nper as (-> & ->). apply IH; [rewrite app_length; cbn; lia|].
    intros x Hx. apply in_app_iff in Hx as [Hx|[<-|[]]]; apply in_or_app; [left; auto|right; now left].
Qed.

Lemma ins_edges : forall R k, map (fun u => (u, k)) (ins R k) = filter (fun e => snd e =? k) R.
Proof.
  intros R k. unfold ins. rewrite map_map. induction R as [|(u & v) R IH]; [reflexivity|]. cbn.
  destruct (v =? k) eqn:Q; [|exact IH]. cbn. apply Nat.eqb_eq in Q; subst. now f_equal.
Qed.
Lemma outs_edges : forall R k, map (fun v => (k, v)) (outs R k) = filter (fun e => fst e =? k) R.
Proof.
  intros R k. unfold outs. rewrite map_map. induction R as [|(u & v) R IH]; [reflexivity|]. cbn.
  destruct (u =? k) eqn:Q; [|exact IH]. cbn. apply Nat.eqb_eq in Q; subst. now f_equal.
Qed.
Definition at_most_one (removed S : list (nat * nat)) (k : nat) : Prop :=
  length (kept removed (filter (fun e => snd e =? k) S)) <= 1 /\
  length (kept removed (filter (fun e => fst e =? k) S)) <= 1.

Lemma trim_node_ok : forall E intr S k removed removed', NoDup S -> In k (construct_graph S) ->
  trim_node E intr removed k = Some removed' ->
  incl removed removed' /\ incl removed' (removed ++ S) /\ at_most_one removed' S (fst k).
Proof.
  intros E intr S (k & io) removed removed' N Ik H. apply graph_entry in Ik as ->. unfold trim_node in H. cbn [fst snd] in H.
  rewrite ins_edges, outs_edges in H. apply bind_Some in H as (r1 & H1 & H2).
  assert (F : forall f, incl (filter f S) S) by (intros f x Hx; now apply filter_In in Hx).
  apply trim_ok in H1 as (A1 & B1 & D1); [|now apply NoDup_filter|constructor|intros x []|intros x []].
  apply trim_ok in H2 as (A2 & B2 & D2); [|now apply NoDup_filter|constructor|intros x []|intros x []].
  repeat split.
  - intros x Hx; auto.
  - intros x Hx. apply B2 in Hx. rewrite in_app_iff in *. destruct Hx as [Hx|Hx]; [|right; eapply F; eauto].
    apply B1 in Hx. rewrite in_app_iff in Hx. destruct Hx as [Hx|Hx]; [now left|right; eapply F; eauto].
  - cbn [fst]. eapply Nat.le_trans; [apply kept_mono, A2|exact D1].
  - exact D2.
Qed.
Lemma trim_node_total : forall E intr S k removed, NoDup S -> incl S E -> length intr = length E ->
  In k (construct_graph S) -> exists removed', trim_node E intr removed k = Some removed'.
Proof.
  intros E intr S (k & io) removed N I L Ik. apply graph_entry in Ik as ->. unfold trim_node. cbn [fst snd].
  rewrite ins_edges, outs_edges.
  assert (F : forall f, incl (filter f S) E) by (intros f x Hx; apply I; now apply filter_In in Hx).
  match goal with |- context [trim ?f E intr ?c [] removed] =>
    destruct (trim_total E intr c L (F _) (NoDup_filter _ N) f [] removed) as (r1 & ->) end.
  - cbn; lia.
  - intros x [].
  - cbn [bind]. apply (trim_total E intr _ L (F _) (NoDup_filter _ N)); [cbn; lia|intros x []].
Qed.

Lemma removed_degree_ok : forall E intr S removed, NoDup S -> removed_degree E intr S = Some removed ->
  incl removed S /\ linear (kept removed S).
Proof.
  intros E intr S removed N H. unfold removed_degree in H.
  assert (G : forall l removed0 removed1, incl l (construct_graph S) ->
    foldM (trim_node E intr) l removed0 = Some removed1 ->
    incl removed0 removed1 /\ incl removed1 (removed0 ++ S) /\ (forall k, In k l -> at_most_one removed1 S (fst k))).
  { induction l as [|k l IH]; intros r0 r1 I Q; cbn in Q.
    - injection Q as <-. repeat split; [apply incl_refl|apply incl_appl, incl_refl| |]; destruct H0.
    - apply bind_Some in Q as (r & Q1 & Q2). apply (trim_node_ok E intr S) in Q1 as (A & B & D); [|exact N|apply I; now left].
      apply IH in Q2 as (A' & B' & D'); [|intros x Hx; apply I; now right].
      split; [intros x Hx; auto|]. split.
      { intros x Hx. apply B' in Hx. rewrite in_app_iff in *. destruct Hx as [Hx|Hx]; [|now right].
        apply B in Hx. now rewrite in_app_iff in Hx. }
      intros k' [<-|Hk]; [|auto]. destruct D as (D1 & D2).
      split; (eapply Nat.le_trans; [apply kept_mono; exact A'|assumption]). }
  apply G in H as (_ & B & D); [|intros x Hx; now apply filter_In in Hx].
  split; [exact B|].
  assert (AM : forall k, In k (keys (construct_graph S)) -> at_most_one removed S k).
  { intros k Hk. apply in_map_iff in Hk as ((k' & io) & <- & Hk). cbn [fst].
    destruct (excess io) eqn:X.
    - apply (D (k', io)). apply filter_In. auto.
    - pose proof (graph_entry _ _ _ Hk) as ->. unfold excess in X. apply orb_false_iff in X as (X1 & X2).
      cbn [fst snd] in X1, X2. apply Nat.ltb_ge in X1, X2. unfold ins, outs in X1, X2. rewrite map_length in X1, X2.
      assert (Z : forall l, length (kept removed l) <= length l).
      { intros l. unfold kept. induction l as [|x l IH]; [cbn; lia|]. cbn. destruct (negb (edge_mem x removed)); cbn; lia. }
      split; (eapply Nat.le_trans; [apply Z|assumption]). }
  assert (K : forall u v, In (u, v) S -> In u (keys (construct_graph S)) /\ In v (keys (construct_graph S))).
  { intros u v Q. pose proof (proj1 (proj2 (construct_graph_ok S))) as K. rewrite !K. split; eauto. }
  assert (ONE : forall (l : list (nat * nat)) x y, length l <= 1 -> In x l -> In y l -> x = y).
  { intros [|a [|b l]] x y L X Y; cbn in L; try lia; [destruct X|]. destruct X as [<-|[]], Y as [<-|[]]. reflexivity. }
  split.
  - intros u v v' H1 H2. apply in_kept in H1 as (H1 & R1), H2 as (H2 & R2).
    destruct (AM u) as (_ & L); [apply (K u v H1)|].
    assert (Q : (u, v) = (u, v')); [|now injection Q].
    apply (ONE _ _ _ L); apply in_kept; (split; [apply filter_In; split; [assumption|apply Nat.eqb_refl]|assumption]).
  - intros u u' v H1 H2. apply in_kept in H1 as (H1 & R1), H2 as (H2 & R2).
    destruct (AM v) as (L & _); [apply (K u v H1)|].
    assert (Q : (u, v) = (u', v)); [|now injection Q].
    apply (ONE _ _ _ L); apply in_kept; (split; [apply filter_In; split; [assumption|apply Nat.eqb_refl]|assumption]).
Qed.
Lemma removed_degree_total : forall E intr S, NoDup S -> incl S E -> length intr = length E ->
  exists removed, removed_degree E intr S = Some removed.
Proof.
  intros E intr S N I L. unfold removed_degree.
  destruct (foldM_ok (trim_node E intr) (fun _ => True) (filter (fun k => excess (snd k)) (construct_graph S)) []) as (r & Hr & _); auto.
  - intros r k Hk _. apply filter_In in Hk as (Hk & _).
    destruct (trim_node_total E intr S k r) as (r' & Hr); eauto.
  - eauto.
Qed.
Lemma linear_incl : forall R R', incl R' R -> linear R -> linear R'.
Proof. intros R R' I (A & B). split; [intros u v v' H1 H2; apply (A u); auto|intros u u' v H1 H2; apply (B u u' v); auto]. Qed.
