(** * TSP post-processing: joining the paths to a tour *)
From Coq Require Import Permutation.
From Verif Require Import Num NumFacts Arr ArrFacts Spec SpecGraph SpecTour P_Ksat P_Equality P_Runs T_Tsp_Run.
From Verif Require Import M_InOut M_Tsp_Loops M_Tsp_Run P_Tsp_Run M_Tsp_Py M_Ksat_Py P_Ksat_Py M_Tsp_Post.
From Verif Require Import P_Tsp_Tour P_Tsp_Kopt P_Tsp_Paths P_Tsp_Walks.
Local Open Scope nat_scope.

(** ** Permutations *)
Lemma in_selects : forall (l : list nat) x r, In (x, r) (selects l) -> Permutation l (x :: r).
Proof.
  induction l as [|y l IH]; intros x r H; [destruct H|]. cbn in H. destruct H as [H|H].
  - injection H as -> ->. apply Permutation_refl.
  - apply in_map_iff in H as ((x' & r') & Q & H). cbn in Q. injection Q as <- <-.
    apply IH in H. eapply Permutation_trans; [apply perm_skip, H|apply perm_swap].
Qed.
Lemma selects_all : forall (l : list nat) x, In x l -> exists r, In (x, r) (selects l).
Proof.
  induction l as [|y l IH]; intros x H; [destruct H|]. destruct H as [->|H]; [exists l; now left|].
  destruct (IH x H) as (r & Hr). exists (y :: r). cbn. right. apply in_map_iff. exists (x, r). auto.
Qed.
Lemma in_permutations : forall k l p, length l = k -> In p (permutations k l) <-> Permutation p l.
Proof.
  induction k as [|k IH]; intros l p L.
  - destruct l; [|discriminate]. cbn. split.
    + intros [<-|[]]; constructor.
    + intros P. apply Permutation_sym, Permutation_nil in P. now left.
  - cbn [permutations]. rewrite in_flat_map. split.
    + intros ((x & r) & H & I). apply in_map_iff in I as (p' & <- & I). apply in_selects in H. cbn [fst snd] in *.
      apply IH in I; [|apply Permutation_length in H; cbn in H; lia].
      apply Permutation_sym in H. eapply Permutation_trans; [|exact H]. now constructor.
    + intros P. destruct p as [|x p]; [apply Permutation_length in P; cbn in P; lia|].
      destruct (selects_all l x) as (r & Hr); [apply (Permutation_in x P); now left|].
      exists (x, r). split; [exact Hr|]. apply in_map. pose proof (in_selects _ _ _ Hr) as Q. cbn [snd].
      apply IH; [apply Permutation_length in Q; cbn in Q; lia|].
      apply (Permutation_cons_inv (a := x)). eapply Permutation_trans; eauto.
Qed.
Lemma starting_perms : forall m p,
  In p (filter (fun q => match q with x :: _ => x =? 0 | [] => false end) (permutations m (seq 0 m))) <->
  Permutation p (seq 0 m) /\ exists p', p = 0 :: p'.
Proof.
  intros m p. rewrite filter_In, in_permutations by apply seq_length. split; intros (P & H); (split; [exact P|]).
  - destruct p as [|x p]; [discriminate|]. apply Nat.eqb_eq in H; subst. eauto.
  - destruct H as (p' & ->). apply Nat.eqb_refl.
Qed.
Lemma concat_perm : forall (a b : list (list nat)), Permutation a b -> Permutation (concat a) (concat b).
Proof.
  intros a b P; induction P as [|x a b _ IH|x y a|a b c _ IH1 _ IH2]; cbn.
  - constructor.
  - now apply Permutation_app_head.
  - rewrite !app_assoc. apply Permutation_app_tail, Permutation_app_comm.
  - eapply Permutation_trans; eauto.
Qed.
Lemma map_nth_seq : forall (l : list (list nat)), map (fun i => nth i l []) (seq 0 (length l)) = l.
Proof.
  intros l. induction l as [|x l IH]; [reflexivity|]. cbn [length seq map]. f_equal.
  rewrite <- seq_shift, map_map. exact IH.
Qed.
Lemma parts_ok : forall (paths : list (list nat)) perm, Permutation perm (seq 0 (length paths)) ->
  exists parts, mapM (get paths) perm = Some parts /\ Permutation parts paths /\ parts = map (fun i => nth i paths []) perm.
Proof.
  intros paths perm P. exists (map (fun i => nth i paths []) perm). split; [|split; [|reflexivity]].
  - apply mapM_Some. intros i Hi. unfold get. apply nth_error_nth'.
    apply (Permutation_in i P) in Hi. apply in_seq in Hi. lia.
  - pose proof (Permutation_map (fun i => nth i paths []) P) as X. now rewrite map_nth_seq in X.
Qed.
(** every order of the paths that begins with the same path *)
Lemma orders : forall (paths ps : list (list nat)) x ps', ps = x :: ps' -> hd [] paths = x -> Permutation ps paths ->
  exists perm, Permutation perm (seq 0 (length paths)) /\ (exists p', perm = 0 :: p') /\ map (fun i => nth i paths []) perm = ps.
Proof.
  intros paths ps x ps' -> Hx P. destruct paths as [|y paths]; [apply Permutation_length in P; discriminate|].
  cbn in Hx; subst y. apply Permutation_cons_inv in P.
  assert (G : forall a b : list (list nat), Permutation a b ->
    exists perm, Permutation perm (seq 0 (length b)) /\ map (fun i => nth i b []) perm = a).
  { intros a b Q. apply Permutation_sym in Q. apply (Permutation_nth b a []) in Q.
    destruct Q as (L & f & Bf & If & Hf). exists (map f (seq 0 (length b))). split.
    - apply NoDup_Permutation_bis.
      + clear -If Bf. assert (S : forall l, NoDup l -> (forall i, In i l -> i < length b) -> NoDup (map f l)).
        { induction l as [|i l IH]; intros N Hl; [constructor|]. inversion N; subst. cbn. constructor.
          - intros X. apply in_map_iff in X as (j & Q & Hj). assert (j = i); [|subst; contradiction].
            apply If; auto; apply Hl; [now right|now left].
          - apply IH; [assumption|]. intros; apply Hl; now right. }
        apply S; [apply seq_NoDup|]. intros i Hi. apply in_seq in Hi. lia.
      + rewrite map_length, !seq_length. lia.
      + intros j Hj. apply in_map_iff in Hj as (i & <- & Hi). apply in_seq in Hi. apply in_seq. specialize (Bf i). lia.
    - rewrite map_map. rewrite <- (map_nth_seq a), L. apply map_ext_in. intros i Hi. apply in_seq in Hi.
      symmetry. apply Hf. lia. }
  destruct (G ps' paths P) as (perm & Q & M).
  exists (0 :: map S perm). split; [|split].
  - cbn [length seq]. constructor. rewrite <- seq_shift. now apply Permutation_map.
  - eauto.
  - cbn [map nth]. f_equal. rewrite map_map. exact M.
Qed.

Lemma nodup_app : forall (a b : list nat), NoDup a -> NoDup b -> (forall x, In x a -> ~ In x b) -> NoDup (a ++ b).
Proof.
  intros a b Na Nb D; induction a as [|y a IH]; [exact Nb|]. inversion Na; subst. cbn. constructor.
  - intros X. apply in_app_iff in X as [X|X]; [contradiction|]. apply (D y); [now left|exact X].
  - apply IH; [assumption|]. intros x Hx. apply D; now right.
Qed.

Lemma tour_length_shift : forall w x t, tour_length w (x :: t) = tour_length w (t ++ [x]).
Proof.
  intros w x [|y t]; [reflexivity|]. unfold tour_length. cbn [firstn app].
  change (x :: y :: t ++ [x]) with ((x :: y :: t) ++ [x]). rewrite steps_closed.
  change (y :: (t ++ [x]) ++ [y]) with ((y :: t ++ [x]) ++ [y]). rewrite steps_closed.
  assert (Q : forall (a b : list nat) u v, length a = length b -> combine (a ++ [u]) (b ++ [v]) = combine a b ++ [(u, v)]).
  { intros a; induction a as [|z a IH]; intros [|z' b] u v L; try discriminate; [reflexivity|]. cbn. f_equal. apply IH. now injection L. }
  change (combine (y :: t ++ [x]) ((t ++ [x]) ++ [y])) with (combine ((y :: t) ++ [x]) ((t ++ [x]) ++ [y])).
  rewrite Q by (rewrite app_length; cbn; lia).
  change (combine (x :: y :: t) ((y :: t) ++ [x])) with ((x, y) :: combine (y :: t) (t ++ [x])).
  apply qsum_perm, Permutation_map, Permutation_cons_append.
Qed.
Lemma tour_length_rot : forall w a b, tour_length w (a ++ b) = tour_length w (b ++ a).
Proof.
  intros w a; induction a as [|x a IH]; intros b; [now rewrite app_nil_r|].
  cbn [app]. rewrite tour_length_shift, <- app_assoc, IH, <- app_assoc. reflexivity.
Qed.

Section Post.
Variables (n : nat) (E : list (nat * nat)) (C : list (list Qc)).
Hypothesis HE : complete n E.
Hypothesis SC : shape n n C.
Let w := qat C.
Let cost := map (fun e => Fin (w (fst e) (snd e))) E.

Definition instance (d : pp_data) : Prop :=
  d_n d = n /\ d_edges d = E /\ d_cost d = cost /\ d_cm d = inj C /\ NoDup (d_selected d) /\ incl (d_selected d) E.

Lemma perm_path_in : forall t, 2 <= n -> Permutation t (seq 0 n) -> path_in E (t ++ firstn 1 t).
Proof.
  intros t H P.
  assert (N : NoDup t) by (apply (Permutation_NoDup (l := seq 0 n)); [now apply Permutation_sym|apply seq_NoDup]).
  assert (I : forall x, In x t -> x < n) by (intros x Hx; apply (Permutation_in x P) in Hx; apply in_seq in Hx; lia).
  destruct t as [|x t]; [apply Permutation_length in P; rewrite seq_length in P; cbn in P; lia|].
  cbn [firstn]. assert (Nt : t <> []) by (intros ->; apply Permutation_length in P; rewrite seq_length in P; cbn in P; lia).
  intros u v Q. apply (proj2 HE). apply in_steps in Q. rewrite steps_closed in Q.
  split; [|split].
  - apply I. now apply in_combine_l in Q.
  - apply I. apply in_combine_r in Q. apply in_app_iff in Q as [Q|[<-|[]]]; [now right|now left].
  - clear -N Nt Q. intros ->.
    assert (G : forall t x y, NoDup (x :: t) -> ~ In y (x :: t) \/ (y = x /\ t <> []) \/ (In y (x :: t)) /\ False -> In (v, v) (combine (x :: t) (t ++ [y])) -> False).
    { induction t0 as [|z t0 IH]; intros x0 y N0 D X.
      - destruct X as [X|[]]. injection X as -> ->. destruct D as [D|[(_ & D)|(_ & [])]]; [apply D; now left|now apply D].
      - cbn [combine app] in X. destruct X as [X|X].
        + injection X as -> ->. inversion N0 as [|? ? N1 _]. apply N1; now left.
        + inversion N0 as [|? ? N1 N2]; subst. revert X. apply (IH z y N2).
          left. destruct D as [D|[(-> & _)|(_ & [])]]; [intros X; apply D; now right|exact N1]. }
    apply (G t x x N); auto.
Qed.
Lemma tour_cost_len : forall t, 2 <= n -> Permutation t (seq 0 n) ->
  tour_cost E cost t = Some (Fin (tour_length w t)).
Proof.
  intros t H P. unfold cost, tour_length. apply (tour_cost_ok E (fun e => w (fst e) (snd e))); [apply HE|].
  apply path_steps. now apply perm_path_in.
Qed.

(** the edges left over *)
Lemma remaining_ok : forall d R, instance d -> remaining_edges d = Some R ->
  NoDup R /\ linear R /\ incl R (d_selected d).
Proof.
  intros d R (_ & _ & _ & _ & N & I) H. unfold remaining_edges in H.
  apply bind_Some in H as (r1 & H1 & H). apply bind_Some in H as (sel & H2 & H). injection H as <-.
  apply removed_degree_ok in H1 as (_ & L); [|exact N].
  assert (S : NoDup sel /\ incl sel (d_selected d)).
  { destruct (d_paths d) as [paths|].
    - apply bind_Some in H2 as (r2 & _ & H2). injection H2 as <-. split; [now apply NoDup_filter|].
      intros x Hx. now apply filter_In in Hx.
    - injection H2 as <-. split; [exact N|apply incl_refl]. }
  destruct S as (Ns & Is). split; [now apply NoDup_filter|]. split.
  - eapply linear_incl; [|exact L]. intros x Hx. apply filter_In in Hx as (Hx & Q). apply filter_In. auto.
  - intros x Hx. apply Is. now apply filter_In in Hx.
Qed.

(** the nodes on no path *)
Definition missing_of (ps : list (list nat)) : list nat := filter (fun v => negb (mem v (concat ps))) (seq 0 n).
Lemma missing_perm : forall ps, NoDup (concat ps) -> Forall (fun v => v < n) (concat ps) ->
  Permutation (concat ps ++ missing_of ps) (seq 0 n).
Proof.
  intros ps N F. apply NoDup_Permutation.
  - apply nodup_app; [exact N|apply NoDup_filter, seq_NoDup|].
    intros x Hx Hm. apply in_not_added in Hm. tauto.
  - apply seq_NoDup.
  - intros x. rewrite in_app_iff. unfold missing_of. rewrite in_not_added, in_seq. rewrite Forall_forall in F.
    split; [intros [Hx|Hx]; [specialize (F x Hx); lia|tauto]|].
    intros Hx. destruct (in_dec Nat.eq_dec x (concat ps)); [now left|right]. split; [lia|assumption].
Qed.

Lemma attach : forall ps base, NoDup (concat ps) -> Forall (fun v => v < n) (concat ps) -> concat ps <> [] ->
  Permutation base (concat ps) ->
  exists t, (if nonempty (missing_of ps) then add_missing_nodes (inj C) base (missing_of ps) else Some base) = Some t /\
    grown w (missing_of ps) base t /\ Permutation t (seq 0 n).
Proof.
  intros ps base N F Ne P.
  assert (G : exists t, (if nonempty (missing_of ps) then add_missing_nodes (inj C) base (missing_of ps) else Some base) = Some t /\
    grown w (missing_of ps) base t).
  { destruct (nonempty (missing_of ps)) eqn:Q.
    - apply (add_missing_nodes_ok n C SC).
      + apply NoDup_filter, seq_NoDup.
      + apply Forall_forall. intros x Hx. apply filter_In in Hx as (Hx & _). apply in_seq in Hx. lia.
      + rewrite Forall_forall in *. intros x Hx. apply F. now apply (Permutation_in x P).
      + intros ->. apply Permutation_nil in P. auto.
    - destruct (missing_of ps) as [|x l] eqn:M; [|discriminate]. exists base. split; [reflexivity|constructor]. }
  destruct G as (t & Ht & G). exists t. split; [exact Ht|]. split; [exact G|].
  destruct (grown_split _ _ _ _ G) as (a & b & -> & Q).
  eapply Permutation_trans; [|apply (missing_perm ps N F)].
  eapply Permutation_trans; [apply Permutation_app_comm|]. rewrite <- app_assoc.
  eapply Permutation_trans; [apply Permutation_app_tail, P|]. apply Permutation_app_head.
  eapply Permutation_trans; [apply Permutation_app_comm|exact Q].
Qed.

(** the tour before k-opt: the paths in some order, with the missing nodes attached, and no order of
    the paths would have been better *)
Definition joined (ps : list (list nat)) (t : list nat) : Prop :=
  exists qs, Permutation qs ps /\ grown w (missing_of ps) (concat qs) t /\
    (missing_of ps = [] -> forall qs', Permutation qs' ps -> (tour_length w t <= tour_length w (concat qs'))%Qc).

Definition len (t : list nat) : Qc := tour_length w t.

Lemma join_ok : forall d ps perm, instance d -> NoDup (concat ps) -> Forall (fun v => v < n) (concat ps) ->
  concat ps <> [] -> 2 <= n -> Permutation perm (seq 0 (length ps)) ->
  exists t, join_paths d ps (missing_of ps) perm = Some (t, Fin (len t)) /\
    grown w (missing_of ps) (concat (map (fun i => nth i ps []) perm)) t /\ Permutation t (seq 0 n).
Proof.
  intros d ps perm (_ & De & Dc & Dm & _) N F Ne Hn P. unfold join_paths.
  destruct (parts_ok ps perm P) as (parts & -> & Pp & ->). cbn [bind]. rewrite Dm.
  destruct (attach ps (concat (map (fun i => nth i ps []) perm)) N F Ne) as (t & -> & G & Pt).
  { now apply concat_perm. }
  cbn [bind]. rewrite De, Dc, tour_cost_len by assumption. cbn [bind]. exists t. auto.
Qed.

Lemma core_ok : forall d ps, instance d -> NoDup (concat ps) -> Forall (fun v => v < n) (concat ps) ->
  Forall (fun p => p <> []) ps -> ps <> [] -> 2 <= n ->
  exists t, (if 1 <? length ps then
       cands <- mapM (join_paths d ps (missing_of ps))
                  (filter (fun q => match q with x :: _ => x =? 0 | [] => false end)
                     (permutations (length ps) (seq 0 (length ps)))) ;;
       b <- np_argmin (map snd cands) ;;
       get cands b
     else
       path <- get ps 0 ;;
       tour <- (if nonempty (missing_of ps) then add_missing_nodes (d_cm d) path (missing_of ps) else Some path) ;;
       c <- tour_cost (d_edges d) (d_cost d) tour ;;
       Some (tour, c)) = Some (t, Fin (len t)) /\ joined ps t /\ Permutation t (seq 0 n).
Proof.
  intros d ps Hd N F Fn Ne Hn.
  assert (Nc : concat ps <> []).
  { destruct ps as [|p ps]; [contradiction|]. inversion Fn; subst. destruct p; [contradiction|discriminate]. }
  destruct (1 <? length ps) eqn:L.
  - set (perms := filter _ _).
    assert (HP : forall p, In p perms <-> Permutation p (seq 0 (length ps)) /\ exists p', p = 0 :: p') by apply starting_perms.
    assert (J : forall p, In p perms -> exists t, join_paths d ps (missing_of ps) p = Some (t, Fin (len t)) /\
        grown w (missing_of ps) (concat (map (fun i => nth i ps []) p)) t /\ Permutation t (seq 0 n)).
    { intros p Hp. apply HP in Hp as (Hp & _). now apply join_ok. }
    destruct (mapM_all (join_paths d ps (missing_of ps)) perms) as (cands & Ec & Lc & Ic).
    { intros p Hp. destruct (J p Hp) as (t & Ht & _). eauto. }
    rewrite Ec. cbn [bind].
    assert (Hc : forall tc, In tc cands -> exists p t, In p perms /\ tc = (t, Fin (len t)) /\
        grown w (missing_of ps) (concat (map (fun i => nth i ps []) p)) t /\ Permutation t (seq 0 n)).
    { intros tc Htc. apply Ic in Htc as (p & Hp & Q). destruct (J p Hp) as (t & Ht & G & Pt).
      exists p, t. rewrite Q in Ht. injection Ht as ->. auto. }
    assert (Es : map snd cands = map Fin (map (fun tc => len (fst tc)) cands)).
    { rewrite map_map. apply map_ext_in. intros tc Htc. destruct (Hc tc Htc) as (_ & t & _ & -> & _). reflexivity. }
    assert (N0 : In (seq 0 (length ps)) perms).
    { apply HP. split; [apply Permutation_refl|]. destruct ps; [contradiction|]. cbn. eauto. }
    rewrite Es. destruct (argmin_min (map (fun tc => len (fst tc)) cands)) as (m & v & -> & Gm & Mm).
    { intros Q. apply map_eq_nil in Q. subst cands. destruct perms; [destruct N0|discriminate]. }
    cbn [bind]. rewrite get_map in Gm. destruct (get cands m) as [tc|] eqn:Q; [|discriminate]. injection Gm as <-.
    pose proof (nth_error_In _ _ Q) as Itc. destruct (Hc tc Itc) as (p & t & Hp & -> & G & Pt). cbn [fst] in Mm.
    exists t. split; [reflexivity|]. split; [|exact Pt].
    apply HP in Hp as (Hp & _). destruct (parts_ok ps p Hp) as (_ & _ & Pq & ->).
    exists (map (fun i => nth i ps []) p). split; [exact Pq|]. split; [exact G|].
    intros M0 qs' Pq'.
    assert (X : exists a b, qs' = a ++ hd [] ps :: b).
    { apply in_split. apply Permutation_sym in Pq'. apply (Permutation_in _ Pq'). destruct ps; [contradiction|now left]. }
    destruct X as (a & b & ->). rewrite concat_app, tour_length_rot, <- concat_app. cbn [app].
    destruct (orders ps (hd [] ps :: b ++ a) (hd [] ps) (b ++ a) eq_refl eq_refl) as (perm & P1 & P2 & P3).
    { eapply Permutation_trans; [|exact Pq']. change (hd [] ps :: b ++ a) with ((hd [] ps :: b) ++ a). apply Permutation_app_comm. }
    assert (Hp' : In perm perms) by (apply HP; auto).
    destruct (J perm Hp') as (t' & Ht' & G' & _). rewrite P3, M0 in G'.
    assert (Qt : t' = concat (hd [] ps :: b ++ a)).
    { inversion G' as [? E1 E2| |]; subst; [reflexivity| |]; match goal with X : Permutation [] _ |- _ => apply Permutation_nil in X; discriminate end. }
    rewrite <- Qt. apply Mm. apply in_map_iff. exists (t', Fin (len t')). split; [reflexivity|]. apply Ic. eauto.
  - apply Nat.ltb_ge in L. destruct ps as [|p [|q ps]]; [contradiction| |cbn in L; lia].
    change (get [p] 0) with (Some p). cbn [bind]. destruct Hd as (_ & De & Dc & Dm & _). rewrite Dm.
    destruct (attach [p] p N F Nc) as (t & -> & G & Pt); [cbn; rewrite app_nil_r; apply Permutation_refl|].
    cbn [bind]. rewrite De, Dc, tour_cost_len by assumption. cbn [bind]. exists t. split; [reflexivity|]. split; [|exact Pt].
    exists [p]. split; [apply Permutation_refl|]. cbn [concat]. rewrite app_nil_r. split; [exact G|].
    intros M0 qs' Pq'. apply Permutation_sym, Permutation_length_1_inv in Pq'. subst qs'. cbn [concat]. rewrite app_nil_r.
    rewrite M0 in G. inversion G; subst; [qlra| |]; match goal with X : Permutation [] _ |- _ => apply Permutation_nil in X; discriminate end.
Qed.

Lemma paths_facts : forall d R ps, instance d -> remaining_edges d = Some R ->
  get_paths (construct_graph R) = Some ps ->
  NoDup (concat ps) /\ Forall (fun v => v < n) (concat ps) /\ Forall (fun p => p <> []) ps /\ (ps <> [] -> 2 <= n).
Proof.
  intros d R ps Hd HR G. destruct (remaining_ok d R Hd HR) as (NR & LR & IR).
  destruct (get_paths_ok R NR LR) as (ps' & E' & Fg & Nc & _). rewrite G in E'. injection E' as <-.
  assert (Kn : forall x, In x (keys (construct_graph R)) -> x < n /\ 2 <= n).
  { intros x Hx. apply (proj1 (proj2 (construct_graph_ok R))) in Hx as (y & Hx).
    destruct Hd as (_ & _ & _ & _ & _ & I).
    destruct Hx as [Hx|Hx]; apply IR, I, (proj2 HE) in Hx; lia. }
  rewrite Forall_forall in Fg. split; [exact Nc|]. split; [|split].
  - apply Forall_forall. intros x Hx. apply in_concat in Hx as (p & Hp & Hx).
    destruct (Fg p Hp) as (_ & _ & K & _). apply (Kn x (K x Hx)).
  - apply Forall_forall. intros p Hp. apply (Fg p Hp).
  - intros Ne. destruct ps as [|p ps]; [contradiction|]. destruct (Fg p (or_introl eq_refl)) as (Np & _ & K & _).
    destruct p as [|x p]; [contradiction|]. apply (Kn x (K x (or_introl eq_refl))).
Qed.

(** The whole procedure. *)
Lemma run_inv : forall d t c, instance d -> run_post_processing d = Some (t, c) ->
  exists R ps t0 tour, remaining_edges d = Some R /\ get_paths (construct_graph R) = Some ps /\ ps <> [] /\ 2 <= n /\
    joined ps t0 /\ Permutation t0 (seq 0 n) /\ t = tour ++ firstn 1 tour /\ tour <> [] /\
    (if d_kopt d then perform_k_opt E cost t0 (Fin (len t0)) = Some (tour, c) else tour = t0 /\ c = Fin (len t0)).
Proof.
  intros d t c Hd H. unfold run_post_processing in H. apply bind_Some in H as (R & HR & H).
  apply bind_Some in H as (ps & HP & H).
  destruct (paths_facts d R ps Hd HR HP) as (N & F & Fn & N2).
  change (filter (fun v => negb (mem v (concat ps))) (seq 0 (d_n d))) with (filter (fun v => negb (mem v (concat ps))) (seq 0 (d_n d))) in H.
  rewrite (proj1 Hd) in H. fold (missing_of ps) in H.
  destruct ps as [|p ps0] eqn:Qp.
  { cbn in H. discriminate. }
  rewrite <- Qp in *. assert (Ne : ps <> []) by (rewrite Qp; discriminate).
  destruct (core_ok d ps Hd N F Fn Ne (N2 Ne)) as (t0 & E0 & J & P0).
  rewrite E0 in H. cbn [bind] in H. apply bind_Some in H as ((tour & c1) & H1 & H).
  apply bind_Some in H as (f & Hf & H). injection H as <- <-.
  exists R, ps, t0, tour. split; [exact HR|]. split; [exact HP|]. split; [exact Ne|]. split; [auto|]. split; [exact J|].
  split; [exact P0|]. split; [destruct tour as [|x tour]; [discriminate|]; injection Hf as ->; reflexivity|].
  split; [intros ->; discriminate|].
  destruct Hd as (_ & De & Dc & _). destruct (d_kopt d).
  - now rewrite De, Dc in H1.
  - injection H1 as <- <-. auto.
Qed.
Lemma run_total : forall d R u v, instance d -> remaining_edges d = Some R -> In (u, v) R -> sink R v ->
  (d_kopt d = true -> 5 <= n) -> exists t c, run_post_processing d = Some (t, c).
Proof.
  intros d R u v Hd HR Huv Sv Hk. unfold run_post_processing. rewrite HR. cbn [bind].
  destruct (remaining_ok d R Hd HR) as (NR & LR & IR).
  destruct (get_paths_ok R NR LR) as (ps & HP & _ & _ & _ & Ne). specialize (Ne u v Huv Sv).
  rewrite HP. cbn [bind]. destruct (paths_facts d R ps Hd HR HP) as (N & F & Fn & N2).
  rewrite (proj1 Hd). fold (missing_of ps).
  destruct (core_ok d ps Hd N F Fn Ne (N2 Ne)) as (t0 & E0 & J & P0).
  rewrite E0. cbn [bind]. destruct Hd as (_ & De & Dc & _). rewrite De, Dc.
  assert (L0 : length t0 = n) by (rewrite (Permutation_length P0); apply seq_length).
  assert (X : exists tour c1, (if d_kopt d then perform_k_opt E cost t0 (Fin (len t0)) else Some (t0, Fin (len t0))) = Some (tour, c1) /\ length tour = n).
  { destruct (d_kopt d).
    - destruct (perform_ok E cost len t0) as (mid & t' & -> & A & B & _).
      + specialize (Hk eq_refl). lia.
      + intros c Pc. apply tour_cost_len; [auto|]. eapply Permutation_trans; eauto.
      + exists t', (Fin (len t')). split; [reflexivity|].
        assert (P1 : length mid = length t0) by (destruct A as [->|A]; [reflexivity|symmetry; apply Permutation_length; now apply exchange3_perm]).
        assert (P2 : length t' = length mid) by (destruct B as [->|B]; [reflexivity|symmetry; apply Permutation_length; now apply exchange2_perm]).
        lia.
    - eauto. }
  destruct X as (tour & c1 & -> & Lt). cbn [bind]. destruct tour as [|x tour]; [specialize (N2 Ne); cbn in Lt; lia|].
  cbn. eauto.
Qed.
Lemma run_none : forall d R, instance d -> remaining_edges d = Some R ->
  get_paths (construct_graph R) = Some [] -> run_post_processing d = None.
Proof. intros d R Hd HR HP. unfold run_post_processing. rewrite HR. cbn [bind]. rewrite HP. reflexivity. Qed.

End Post.
