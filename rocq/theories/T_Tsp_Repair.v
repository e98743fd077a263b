(** * What the TSP post-processing removes: C75. *)
From Coq Require Import Permutation Qcabs.
From Verif Require Import Num NumFacts Arr ArrFacts Spec SpecGraph SpecTour M_Ksat_Py P_Ksat_Py M_InOut M_Tsp_Loops M_Tsp_Run T_Tsp_Call M_Tsp_Py P_Tsp_Py M_Tsp_Post P_Tsp_Walks.
From Verif Require Import P_Tsp_Tour P_Tsp_Paths P_Tsp_Linear T_Tsp_Post.
Local Open Scope nat_scope.

(** The strength of an edge is the absolute value of its intrinsic value. *)
Definition weaker (val : nat * nat -> Qc) (e e' : nat * nat) : Prop := (Qcabs (val e) <= Qcabs (val e'))%Qc.
(** selected edges leaving and entering a node *)
Definition leaving (x : nat) (sel : list (nat * nat)) := filter (fun e => fst e =? x) sel.
Definition entering (x : nat) (sel : list (nat * nat)) := filter (fun e => snd e =? x) sel.

Lemma nabs_Fin q : nabs (Fin q) = Fin (Qcabs q).
Proof.
  cbn. destruct (qltb_spec q 0) as [H|H]; f_equal; symmetry.
  - apply Qcabs_neg. qlra.
  - apply Qcabs_pos. qlra.
Qed.
Lemma mapM_edges (val : nat * nat -> Qc) (E : list (nat * nat)) : forall idx es, mapM (get E) idx = Some es ->
  mapM (get (map (fun e => Fin (val e)) E)) idx = Some (map (fun e => Fin (val e)) es).
Proof.
  induction idx as [|i idx IH]; cbn [mapM]; intros es H; [injection H as <-; reflexivity|].
  apply bind_Some in H as (e & G & H). apply bind_Some in H as (r & H1 & H). injection H as <-.
  rewrite get_map, G. cbn [option_map bind]. rewrite (IH _ H1). reflexivity.
Qed.
Lemma mapM_get_nth {A B} (f : A -> option B) : forall l r m a, mapM f l = Some r -> get l m = Some a -> f a = get r m.
Proof.
  induction l as [|x l IH]; intros r m a H G; [destruct m; discriminate|]. cbn in H.
  apply bind_Some in H as (b & Hb & H). apply bind_Some in H as (r' & H1 & H). injection H as <-.
  destruct m as [|m]; cbn in *; [injection G as <-; exact Hb | exact (IH _ _ _ H1 G)].
Qed.
(** of the given edges, one of least strength *)
Lemma weakest_least val E idx es : mapM (get E) idx = Some es -> es <> [] ->
  exists e, weakest E (map (fun e => Fin (val e)) E) idx = Some e /\ In e es /\ forall e', In e' es -> weaker val e e'.
Proof.
  intros H Ne. unfold weakest. rewrite (mapM_edges val _ _ _ H). cbn [bind]. rewrite map_map.
  rewrite (map_ext _ (fun e => Fin (Qcabs (val e)))) by (intros; apply nabs_Fin).
  rewrite <- (map_map (fun e => Qcabs (val e)) Fin).
  destruct (argmin_min (map (fun e => Qcabs (val e)) es)) as (m & v & Em & G & M); [destruct es; [contradiction | discriminate]|].
  rewrite Em. cbn [bind].
  pose proof (get_Some_lt _ _ _ G) as L. rewrite map_length in L. pose proof (mapM_length _ _ _ H) as Le.
  destruct (get idx m) as [i|] eqn:Gi; [|apply nth_error_None in Gi; lia]. cbn [bind].
  rewrite (mapM_get_nth _ _ _ _ _ H Gi). rewrite get_map in G. destruct (get es m) as [e|] eqn:Ge; [|discriminate].
  injection G as <-. exists e. split; [reflexivity|]. split; [apply nth_error_In in Ge; exact Ge|].
  intros e' He. apply M. apply in_map_iff. eauto.
Qed.
Lemma mapM_index E : forall l, incl l E -> exists idx, mapM (edge_index E) l = Some idx /\ mapM (get E) idx = Some l.
Proof.
  induction l as [|e l IH]; intros I; [exists []; auto|].
  destruct (edge_index_total E e (I e (or_introl eq_refl))) as (j & Ej).
  destruct IH as (idx & H1 & H2); [intros x Hx; apply I; now right|].
  exists (j :: idx). cbn [mapM]. rewrite Ej, H1. cbn [bind]. rewrite (edge_index_ok _ _ _ Ej), H2. auto.
Qed.

(** one side of a node none of whose edges has been removed before *)
Lemma trim_keeps val E conns : NoDup conns -> incl conns E -> forall fuel per removed,
  NoDup per -> incl per conns -> (forall e, In e conns -> (In e removed <-> In e per)) ->
  (forall e e', In e per -> In e' conns -> ~ In e' per -> weaker val e e') ->
  length conns - length per <= fuel -> length per < length conns ->
  exists removed' e, trim fuel E (map (fun e => Fin (val e)) E) conns per removed = Some removed' /\
    In e conns /\ ~ In e per /\ (forall x, In x removed' <-> In x removed \/ (In x conns /\ x <> e)) /\
    (forall e', In e' conns -> weaker val e' e).
Proof.
  intros Nc Ic fuel. induction fuel as [|fuel IH]; intros per removed Np Ip Ir W Hf Hl; [lia|].
  cbn [trim]. destruct (1 <? length conns - length per) eqn:Q.
  - apply Nat.ltb_lt in Q.
    destruct (mapM_index E (filter (fun e => negb (edge_mem e removed)) conns)) as (idx & H1 & H2).
    { intros x Hx. apply filter_In in Hx as (Hx & _). auto. }
    rewrite H1. cbn [bind].
    assert (Hk : forall x, In x (filter (fun e => negb (edge_mem e removed)) conns) <-> In x conns /\ ~ In x per).
    { intros x. rewrite filter_In, negb_true_iff, edge_mem_out. split; intros (A & B); split; auto; rewrite ?Ir in *; auto. }
    assert (Ne : filter (fun e => negb (edge_mem e removed)) conns <> []).
    { intros Z. assert (incl conns per).
      { intros x Hx. destruct (edge_mem x per) eqn:M; [now apply edge_mem_In in M|]. apply edge_mem_out in M.
        assert (X : In x []) by (rewrite <- Z; apply Hk; auto). destruct X. }
      pose proof (NoDup_incl_length Nc H). lia. }
    assert (Ni : nonempty idx = true).
    { unfold nonempty. apply mapM_length in H1. rewrite H1. destruct (filter _ _); [contradiction | reflexivity]. }
    rewrite Ni. destruct (weakest_least val E idx _ H2 Ne) as (e & We & Ie & Me). rewrite We. cbn [bind].
    apply Hk in Ie as (Ie & Pe).
    rewrite (proj2 (edge_mem_out e per) Pe). rewrite (proj2 (edge_mem_out e removed)) by (rewrite Ir; auto).
    destruct (IH (per ++ [e]) (removed ++ [e])) as (r & e1 & R1 & R2 & R0 & R3 & R4).
    + apply (Permutation_NoDup (l := e :: per)); [apply Permutation_cons_append | now constructor].
    + intros x Hx. apply in_app_iff in Hx as [Hx|[<-|[]]]; auto.
    + intros x Hx. rewrite !in_app_iff, (Ir x Hx). reflexivity.
    + intros x y Hx Hy Ny. rewrite in_app_iff in Ny. apply in_app_iff in Hx as [Hx|[<-|[]]]; [apply W; auto|].
      apply Me, Hk. auto.
    + rewrite app_length. cbn. lia.
    + rewrite app_length. cbn. lia.
    + rewrite in_app_iff in R0. exists r, e1. split; [exact R1|]. split; [exact R2|]. split; [tauto|]. split; [|exact R4].
      intros x. rewrite R3, in_app_iff. split.
      * intros [[Hx|[<-|[]]]|Hx]; auto. right. split; auto. intros ->. apply R0. right; now left.
      * intros [Hx|Hx]; auto.
  - apply Nat.ltb_ge in Q.
    assert (X : exists e, In e conns /\ ~ In e per).
    { destruct (existsb (fun x => negb (edge_mem x per)) conns) eqn:B.
      - apply existsb_exists in B as (e & He & M). apply negb_true_iff, edge_mem_out in M. eauto.
      - exfalso. assert (I : incl conns per).
        { intros x Hx. destruct (edge_mem x per) eqn:M; [now apply edge_mem_In in M|].
          assert (Y : existsb (fun x => negb (edge_mem x per)) conns = true)
            by (apply existsb_exists; exists x; split; [exact Hx | now rewrite M]). congruence. }
        pose proof (NoDup_incl_length Nc I). lia. }
    destruct X as (e & He & Pe).
    assert (U : forall x, In x conns -> ~ In x per -> x = e).
    { intros x Hx Px. destruct (edge_eqb x e) eqn:B; [now apply edge_eqb_iff in B|]. exfalso.
      assert (Nx : x <> e) by (intros ->; rewrite (proj2 (edge_eqb_iff e e) eq_refl) in B; discriminate).
      assert (L : length (x :: e :: per) <= length conns).
      { apply NoDup_incl_length; [constructor; [intros [<-|Z]; auto | now constructor]|].
        intros y [<-|[<-|Hy]]; auto. }
      cbn in L. lia. }
    exists removed, e. split; [reflexivity|]. split; [exact He|]. split; [exact Pe|]. split.
    + intros x. split; [auto|]. intros [Hx|(Hx & Nx)]; [exact Hx|]. apply Ir; [exact Hx|].
      destruct (edge_mem x per) eqn:M; [now apply edge_mem_In in M|]. apply edge_mem_out in M. destruct (Nx (U x Hx M)).
    + intros x Hx. destruct (edge_mem x per) eqn:M; [apply edge_mem_In in M; auto|]. apply edge_mem_out in M.
      rewrite (U x Hx M). apply Qcle_refl.
Qed.
Lemma trim_short E intr conns removed : length conns <= 1 -> trim (length conns) E intr conns [] removed = Some removed.
Proof. intros H. destruct conns as [|a [|b l]]; [reflexivity | reflexivity | cbn in H; lia]. Qed.

(** sides of nodes, treated one after the other *)
Definition side (sel : list (nat * nat)) (kb : nat * bool) : list (nat * nat) :=
  if snd kb then leaving (fst kb) sel else entering (fst kb) sel.
Definition trim_side E intr sel removed (kb : nat * bool) : option (list (nat * nat)) :=
  trim (length (side sel kb)) E intr (side sel kb) [] removed.
Lemma trim_sides E intr sel : forall l removed, incl l (construct_graph sel) ->
  foldM (trim_node E intr) l removed =
  foldM (trim_side E intr sel) (flat_map (fun k => [(fst k, false); (fst k, true)]) l) removed.
Proof.
  induction l as [|(k & io) l IH]; intros removed I; [reflexivity|].
  pose proof (graph_entry _ _ _ (I _ (or_introl eq_refl))) as ->.
  cbn [flat_map app foldM fst]. unfold trim_node at 1, trim_side at 1. cbn [fst snd]. rewrite ins_edges, outs_edges.
  unfold side at 1 2. cbn [fst snd]. unfold entering.
  destruct (trim _ _ _ (filter (fun e => snd e =? k) sel) _ _) as [r|]; [|reflexivity]. cbn [bind].
  unfold trim_side at 1, side. cbn [fst snd]. unfold leaving.
  destruct (trim _ _ _ (filter (fun e => fst e =? k) sel) _ _) as [r'|]; [|reflexivity]. cbn [bind].
  apply IH. intros x Hx. apply I. now right.
Qed.

Definition one_sided (sel : list (nat * nat)) : Prop :=
  forall e, In e sel -> length (leaving (fst e) sel) <= 1 \/ length (entering (snd e) sel) <= 1.
(** the edges of one side of a node: all but one of the strongest are removed *)
Definition keeps_one (val : nat * nat -> Qc) (conns removed : list (nat * nat)) : Prop :=
  exists e, In e conns /\ forall e', In e' conns -> (In e' removed <-> e' <> e) /\ weaker val e' e.
Lemma side_in sel kb e : In e (side sel kb) <-> In e sel /\ (if snd kb then fst e else snd e) = fst kb.
Proof. unfold side, leaving, entering. destruct kb as (k & [|]); cbn; rewrite filter_In, Nat.eqb_eq; tauto. Qed.
Lemma sides_apart sel : one_sided sel -> forall kb kb' e, 2 <= length (side sel kb) -> 2 <= length (side sel kb') ->
  In e (side sel kb) -> In e (side sel kb') -> kb = kb'.
Proof.
  intros O (k & b) (k' & b') e L L' H H'. apply side_in in H as (He & H), H' as (_ & H'). cbn [fst snd] in *.
  destruct (O e He) as [X|X]; destruct b, b'; subst; unfold side in *; cbn [fst snd] in *; try reflexivity; lia.
Qed.
Lemma sides_kept val E sel : NoDup sel -> incl sel E -> one_sided sel -> forall ss removed, NoDup ss ->
  (forall kb e, In kb ss -> 2 <= length (side sel kb) -> In e (side sel kb) -> ~ In e removed) ->
  exists r, foldM (trim_side E (map (fun e => Fin (val e)) E) sel) ss removed = Some r /\
    (forall e, In e r <-> In e removed \/ exists kb, In kb ss /\ 2 <= length (side sel kb) /\ In e (side sel kb) /\ In e r) /\
    (forall kb, In kb ss -> 2 <= length (side sel kb) -> keeps_one val (side sel kb) r).
Proof.
  intros N I O ss. induction ss as [|kb ss IH]; intros removed Ns F; cbn [foldM].
  - exists removed. split; [reflexivity|]. split; [|intros ? []]. intros e. split; [auto|]. intros [H|(? & [] & _)]; exact H.
  - inversion Ns as [|? ? N1 N2]; subst.
    assert (Ic : incl (side sel kb) E) by (intros x Hx; apply side_in in Hx as (Hx & _); auto).
    assert (Nc : NoDup (side sel kb)) by (unfold side, leaving, entering; destruct (snd kb); apply NoDup_filter; exact N).
    destruct (le_lt_dec 2 (length (side sel kb))) as [L|L].
    + destruct (trim_keeps val E (side sel kb) Nc Ic (length (side sel kb)) [] removed) as (r1 & e & R1 & R2 & _ & R3 & R4).
      * constructor.
      * intros x [].
      * intros x Hx. split; [|intros []]. intros Y. destruct (F kb x (or_introl eq_refl) L Hx Y).
      * intros ? ? [].
      * cbn. lia.
      * cbn. lia.
      * unfold trim_side at 1. rewrite R1. cbn [bind].
        destruct (IH r1 N2) as (r & Q1 & Q2 & Q3).
        { intros kb' x Hk L' Hx Hr. apply R3 in Hr as [Hr|(Hr & _)]; [exact (F kb' x (or_intror Hk) L' Hx Hr)|].
          assert (kb = kb') by (eapply (sides_apart sel O); eauto). subst. contradiction. }
        exists r. split; [exact Q1|].
        assert (S1 : forall x, In x (side sel kb) -> (In x r <-> x <> e)).
        { intros x Hx. rewrite Q2, R3. split.
          - intros [[H|(_ & H)]|(kb' & K1 & K2 & K3 & _)]; [|exact H|].
            + destruct (F kb x (or_introl eq_refl) L Hx H).
            + exfalso. assert (kb = kb') by (eapply (sides_apart sel O); eauto). subst. contradiction.
          - intros H. left. right. auto. }
        split.
        -- intros x. split.
           ++ intros Hx. pose proof Hx as Hx'. apply Q2 in Hx as [Hx|(kb' & K)].
              ** apply R3 in Hx as [Hx|(Hx & _)]; [now left|]. right. exists kb. repeat split; auto. now left.
              ** right. exists kb'. destruct K as (K1 & K2 & K3 & K4). repeat split; auto. now right.
           ++ intros [Hx|(kb' & _ & _ & _ & Hx)]; [apply Q2; left; apply R3; now left | exact Hx].
        -- intros kb' [<-|Hk] L'; [|auto]. exists e. split; [exact R2|]. intros x Hx. split; [auto | apply R4; exact Hx].
    + unfold trim_side at 1. rewrite trim_short by lia. cbn [bind].
      destruct (IH removed N2) as (r & Q1 & Q2 & Q3).
      { intros kb' x Hk. apply F. now right. }
      exists r. split; [exact Q1|]. split.
      * intros x. split.
        -- intros Hx. apply Q2 in Hx as [Hx|(kb' & K1 & K2 & K3 & K4)]; [now left|]. right. exists kb'. repeat split; auto. now right.
        -- intros [Hx|(_ & _ & _ & _ & Hx)]; [apply Q2; now left | exact Hx].
      * intros kb' [<-|Hk] L'; [lia | auto].
Qed.

(** ** C75 *)

(** If no selected edge has competitors at both of its ends, the repair of the degrees keeps of the
    edges leaving a node exactly one, one with the largest absolute intrinsic value, and the same for
    the edges entering a node; an edge without competitors is not removed. *)
Theorem C75_degrees : forall E val sel, NoDup sel -> incl sel E -> one_sided sel ->
  exists r, removed_degree E (map (fun e => Fin (val e)) E) sel = Some r /\ incl r sel /\
    (forall e, In e r -> 2 <= length (leaving (fst e) sel) \/ 2 <= length (entering (snd e) sel)) /\
    (forall x, 2 <= length (leaving x sel) -> keeps_one val (leaving x sel) r) /\
    (forall x, 2 <= length (entering x sel) -> keeps_one val (entering x sel) r).
Proof.
  intros E val sel N I O. unfold removed_degree. rewrite (trim_sides E _ sel) by (intros x Hx; now apply filter_In in Hx).
  set (ks := filter _ _).
  destruct (sides_kept val E sel N I O (flat_map (fun k => [(fst k, false); (fst k, true)]) ks) []) as (r & R1 & R2 & R3).
  - assert (Nk : NoDup (map fst ks)).
    { pose proof (proj1 (construct_graph_ok sel)) as X. unfold keys in X. subst ks. clear -X.
      induction (construct_graph sel) as [|x l IH]; cbn in *; [constructor|]. inversion X as [|? ? X1 X2]; subst.
      destruct (excess (snd x)); cbn; [constructor|]; auto. intros H. apply X1. apply in_map_iff in H as (y & <- & H).
      apply filter_In in H as (H & _). now apply in_map. }
    clear -Nk. induction ks as [|k l IH]; cbn in *; [constructor|]. inversion Nk as [|? ? X1 X2]; subst.
    assert (Z : forall b, ~ In (fst k, b) (flat_map (fun k => [(fst k, false); (fst k, true)]) l)).
    { intros b H. apply in_flat_map in H as (y & Hy & H). apply X1. apply in_map_iff. exists y. split; [|exact Hy].
      destruct H as [H|[H|[]]]; injection H; auto. }
    constructor; [intros [H|H]; [discriminate | exact (Z _ H)]|]. constructor; [apply Z | auto].
  - intros ? ? ? ? ? [].
  - assert (K : forall k b, 2 <= length (side sel (k, b)) -> In (k, b) (flat_map (fun k => [(fst k, false); (fst k, true)]) ks)).
    { intros k b L.
      assert (Kk : exists e, In e (side sel (k, b))) by (destruct (side sel (k, b)) as [|e l]; [cbn in L; lia | exists e; now left]).
      destruct Kk as (e & He). apply side_in in He as (He & Hk). cbn [fst snd] in Hk.
      assert (Ik : In k (keys (construct_graph sel))).
      { apply (proj1 (proj2 (construct_graph_ok sel))). destruct e as (u & v). cbn [fst snd] in Hk. exists (if b then v else u).
        destruct b; subst; auto. }
      unfold keys in Ik. apply in_map_iff in Ik as ((k' & io) & <- & Ik). cbn [fst].
      apply in_flat_map. exists (k', io). split; [|destruct b; cbn; auto].
      subst ks. apply filter_In. split; [exact Ik|]. pose proof (graph_entry _ _ _ Ik) as ->.
      unfold excess. cbn [fst snd]. unfold ins, outs. rewrite !map_length. apply orb_true_iff.
      unfold side, leaving, entering in L. cbn [fst snd] in L. destruct b; [right | left]; apply Nat.ltb_lt; exact L. }
    exists r. split; [exact R1|]. split; [|split; [|split]].
    + intros e He. apply R2 in He as [[]|(kb & _ & _ & He & _)]. now apply side_in in He.
    + intros e He. apply R2 in He as [[]|((k & b) & _ & L & He & _)]. apply side_in in He as (_ & Hk). cbn [fst snd] in Hk.
      destruct b; subst k; [left | right]; exact L.
    + intros x L. exact (R3 (x, true) (K x true L) L).
    + intros x L. exact (R3 (x, false) (K x false L) L).
Qed.

(** ** Listed subtours *)
Definition closed (l : list nat) : list nat := l ++ firstn 1 l.
(** a listed subtour has lost an edge *)
Definition hit (removed : list (nat * nat)) (l : list nat) : bool := existsb (fun e => edge_mem e removed) (steps (closed l)).

Lemma clean_flag removed : forall path acc, snd (clean_path removed path acc) = existsb (fun e => edge_mem e removed) (steps path).
Proof.
  induction path as [|x path IH]; intros acc; [reflexivity|]. cbn [clean_path]. destruct path as [|y path]; [reflexivity|].
  change (steps (x :: y :: path)) with ((x, y) :: steps (y :: path)). cbn [existsb].
  destruct (edge_mem (x, y) removed); [reflexivity|]. apply IH.
Qed.
Lemma tour_edges E t : incl (steps t) E -> NoDup E -> loopless E -> (exists x, hd 0 t = x /\ last t 0 = x) -> t <> [] ->
  exists es, mapM (get E) (tour_indices E t) = Some es /\ forall e, In e es <-> In e (steps t).
Proof.
  intros I N L (x & Hx & Lx) Ne.
  destruct (mapM_all (get E) (tour_indices E t)) as (es & H1 & _ & H2).
  { intros i Hi. assert (R : i < length E) by exact (proj1 (Forall_forall _ _) (tour_indices_range E t) i Hi).
    destruct (get E i) as [e|] eqn:G; [eauto|]. apply nth_error_None in G. lia. }
  exists es. split; [exact H1|]. intros e. rewrite H2. split.
  - intros (i & Hi & G). pose proof (tour_indices_edge _ _ _ _ N Hi G) as Q.
    destruct t as [|y t]; [contradiction|]. cbn [firstn] in Q. rewrite steps_snoc in Q by discriminate.
    apply in_app_iff in Q as [Q|[Q|[]]]; [exact Q|]. exfalso. cbn [hd] in Hx.
    assert (In (x, x) E) by (apply nth_error_In in G; congruence). exact (L x H).
  - intros He. pose proof (I e He) as Ee. apply In_nth_error in Ee as (i & Hi). exists i. split; [|exact Hi].
    unfold tour_indices. apply in_flat_map. exists (i, e). split; [now apply in_enumerate|]. cbn [fst snd].
    rewrite closing_pairs_steps.
    assert (J : In e (filter (edge_eqb e) (steps (t ++ firstn 1 t)))).
    { apply filter_In. split; [|now apply edge_eqb_iff]. destruct t as [|y t]; [contradiction|]. cbn [firstn].
      rewrite steps_snoc by discriminate. apply in_or_app. now left. }
    destruct (filter (edge_eqb e) (steps (t ++ firstn 1 t))); [destruct J|now left].
Qed.

Lemma subtours_least val E r1 loops : NoDup E -> loopless E -> Forall (cycle E) loops ->
  exists r2, removed_subtours E (map (fun e => Fin (val e)) E) (map closed loops)
      (map (fun p => existsb (fun e => edge_mem e r1) (steps p)) (map closed loops)) = Some r2 /\
    Forall2 (fun l e => In e (steps (closed l)) /\ forall e', In e' (steps (closed l)) -> weaker val e e')
      (filter (fun l => negb (hit r1 l)) loops) r2.
Proof.
  intros N L F. unfold removed_subtours.
  match goal with |- exists r, foldM ?f _ _ = Some r /\ Forall2 ?P _ _ =>
    assert (G : forall r0, exists r2, foldM f (combine (map closed loops)
      (map (fun p => existsb (fun e => edge_mem e r1) (steps p)) (map closed loops))) r0 = Some (r0 ++ r2) /\
      Forall2 P (filter (fun l => negb (hit r1 l)) loops) r2) end.
  { induction F as [|l loops Hl F IH]; intros r0; cbn [map combine foldM filter].
    - exists []. rewrite app_nil_r. split; [reflexivity | constructor].
    - cbn [fst snd]. change (existsb (fun e => edge_mem e r1) (steps (closed l))) with (hit r1 l).
      destruct (hit r1 l) eqn:Q; cbn [bind negb].
      + destruct (IH r0) as (r2 & A & B). exists r2. auto.
      + assert (S1 : incl (steps (closed l)) E).
        { destruct Hl as (_ & x & l' & -> & P). intros (u & v) H. apply P. unfold closed in H. now apply in_steps in H. }
        assert (S2 : exists e, In e (steps (closed l))).
        { destruct Hl as (_ & x & l' & -> & P). unfold closed. cbn [firstn]. rewrite steps_closed.
          destruct l' as [|y l']; [exists (x, x) | exists (x, y)]; now left. }
        assert (S3 : closed l <> [] /\ exists x, hd 0 (closed l) = x /\ last (closed l) 0 = x).
        { destruct Hl as (_ & x & l' & -> & _). unfold closed. cbn [firstn]. split; [discriminate|].
          exists x. split; [reflexivity | apply last_last]. }
        destruct (tour_edges E (closed l) S1 N L (proj2 S3) (proj1 S3)) as (es & M1 & M2).
        destruct (weakest_least val E _ es M1) as (e & We & Ie & Me).
        { destruct S2 as (e & He). intros ->. apply M2 in He. destruct He. }
        rewrite We. cbn [bind]. destruct (IH (r0 ++ [e])) as (r2 & A & B). exists (e :: r2).
        rewrite <- app_assoc in A. split; [exact A|]. constructor; [|exact B].
        split; [apply M2; exact Ie|]. intros e' He. apply Me, M2, He. }
  destruct (G []) as (r2 & A & B). exists r2. auto.
Qed.

(** Listed subtours: one that lost an edge to the repair of the degrees is left alone; every other one
    loses one edge, one with the smallest absolute intrinsic value on it.  Nothing else is removed. *)
Theorem C75_subtours : forall n E C val sel loops kopt, complete n E -> NoDup sel -> incl sel E ->
  Forall (cycle E) loops ->
  exists r1 r2, removed_degree E (map (fun e => Fin (val e)) E) sel = Some r1 /\
    Forall2 (fun l e => In e (steps (closed l)) /\ forall e', In e' (steps (closed l)) -> weaker val e e')
      (filter (fun l => negb (hit r1 l)) loops) r2 /\
    remaining_edges (post n E C (map (fun e => Fin (val e)) E) sel (Some (map closed loops)) kopt)
    = Some (filter (fun e => negb (edge_mem e r1) && negb (edge_mem e r2)) sel).
Proof.
  intros n E C val sel loops kopt HE N I F.
  destruct (removed_degree_total E (map (fun e => Fin (val e)) E) sel N I ltac:(apply map_length)) as (r1 & R1).
  destruct (subtours_least val E r1 loops (proj1 HE) (complete_loopless n E HE) F) as (r2 & R2 & L2).
  exists r1, r2. split; [exact R1|]. split; [exact L2|].
  unfold remaining_edges. cbn [post d_edges d_intr d_selected d_paths]. rewrite R1. cbn [bind].
  unfold paths_cleaning. cbn [snd]. rewrite map_map.
  rewrite (map_ext _ (fun p => existsb (fun e => edge_mem e r1) (steps p))) by (intros; apply clean_flag).
  rewrite R2. cbn [bind]. f_equal. clear. induction sel as [|e l IH]; [reflexivity|]. cbn [filter].
  destruct (edge_mem e r2); cbn [negb andb]; [rewrite Bool.andb_false_r; exact IH|]. cbn [filter].
  rewrite Bool.andb_true_r. destruct (negb (edge_mem e r1)); [f_equal|]; exact IH.
Qed.

(** With competitors at both ends the rule fails: node 0 gives up (0, 2), node 2 does not notice and
    gives up (3, 2) as well, the strongest selected edge of all. *)
Definition val3 (e : nat * nat) : Qc :=
  zq (if edge_eqb e (0, 1) then -3 else if edge_eqb e (0, 2) then -1 else if edge_eqb e (3, 2) then -9 else 1).
Theorem C75_two_sided_refuted :
  ~ (forall n E val sel, complete n E -> NoDup sel -> incl sel E ->
      exists r, removed_degree E (map (fun e => Fin (val e)) E) sel = Some r /\
        forall x, 2 <= length (entering x sel) -> keeps_one val (entering x sel) r).
Proof.
  intros H. destruct (H 4 (py_edges (inj cm4)) val3 [(0, 1); (0, 2); (3, 2)]) as (r & R & K).
  - apply py_edges_complete, cm4_ok.
  - repeat constructor; cbn; intuition congruence.
  - intros e He. cbn in He. destruct He as [<-|[<-|[<-|[]]]]; vm_compute; tauto.
  - vm_compute in R. injection R as <-. destruct (K 2) as (e & He & Ke); [vm_compute; lia|].
    destruct (Ke e He) as (Q & _). cbn in He. destruct He as [<-|[<-|[]]]; cbn in Q; tauto.
Qed.

Definition sel9 := [(0, 1); (0, 2); (1, 3); (4, 3)].
Definition val9 (e : nat * nat) : Qc :=
  zq (if edge_eqb e (0, 1) then -3 else if edge_eqb e (0, 2) then -5 else if edge_eqb e (1, 3) then -7 else -2).
(** (0, 1) and (4, 3) are the weak ones; with a listed subtour [2; 3; 4] that did not lose an edge one of its edges goes too *)
Example C75_example :
  one_sided sel9 /\ NoDup sel9 /\ incl sel9 (py_edges (inj cm5)) /\ Forall (cycle (py_edges (inj cm5))) [[2; 3; 4]] /\
  removed_degree (py_edges (inj cm5)) (map (fun e => Fin (val9 e)) (py_edges (inj cm5))) sel9 = Some [(0, 1); (4, 3)] /\
  hit [(0, 1); (4, 3)] [2; 3; 4] = false /\
  remaining_edges (post 5 (py_edges (inj cm5)) cm5 (map (fun e => Fin (val9 e)) (py_edges (inj cm5)))
    sel9 (Some [[2; 3; 4; 2]]) false) = Some [(0, 2); (1, 3)].
Proof.
  split; [intros e He; cbn in He; destruct He as [<-|[<-|[<-|[<-|[]]]]]; vm_compute; auto|].
  split; [repeat constructor; cbn; intuition congruence|].
  split; [intros e He; cbn in He; destruct He as [<-|[<-|[<-|[<-|[]]]]]; vm_compute; tauto|].
  split.
  { constructor; [|constructor]. split; [repeat constructor; cbn; intuition lia|]. exists 2, [3; 4]. split; [reflexivity|].
    intros u v H. apply in_steps in H. cbn in H. destruct H as [H|[H|[H|[]]]]; injection H as <- <-; vm_compute; tauto. }
  split; [vm_compute; reflexivity|]. split; vm_compute; reflexivity.
Qed.
(** two subtours of selected edges: the weakest edge of each goes *)
Example C75_example_subtours :
  NoDup sel5 /\ incl sel5 (py_edges (inj cm5)) /\
  remaining_edges (post 5 (py_edges (inj cm5)) cm5
    (map (fun e => Fin (zq (Z.of_nat (fst e + 2 * snd e) - 20))) (py_edges (inj cm5)))
    sel5 (Some (map closed [[0; 1]; [2; 3; 4]])) false) = Some [(1, 0); (2, 3); (4, 2)].
Proof.
  split; [repeat constructor; cbn; intuition congruence|].
  split; [intros e He; cbn in He; destruct He as [<-|[<-|[<-|[<-|[<-|[]]]]]]; vm_compute; tauto|].
  vm_compute. reflexivity.
Qed.
Print Assumptions C75_degrees.
Print Assumptions C75_subtours.
Print Assumptions C75_two_sided_refuted.
