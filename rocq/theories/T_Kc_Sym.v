(** * Property C69: the numbering of teams, projects and departments does not matter to a KC-MWM call. *)
From Coq Require Import Permutation.
From Verif Require Import Num NumFacts Arr ArrFacts Spec SpecRun MinSum MinSumFacts.
From Verif Require Import M_InOut P_InOut T_InOut M_Runs P_Runs T_Schedule P_Ksat P_PyRef_Ksat P_MinPerm T_PyRef_Run.
Local Open Scope nat_scope.

(** Team [x] of the second instance is team [f x] of the first; likewise projects [g] and departments [h] *)
Record renumbered (T D P : nat) (f g h : nat -> nat) (W W' : list (list nat)) (R R' : list (list Qc))
  (reward reward' : list Qc) (caps caps' : list nat) : Prop := {
  n_teams : shuffles T f; n_projects : shuffles P g; n_departments : shuffles D h;
  n_shapes : shape D T W' /\ shape P T R' /\ length reward' = T /\ length caps' = D;
  n_weights : forall d x, d < D -> x < T -> nth x (nth d W' []) 0 = nth (f x) (nth (h d) W []) 0;
  n_pairs : forall p x, p < P -> x < T -> qat R' p x = qat R (g p) (f x);
  n_reward : forall x, x < T -> nth x reward' 0%Qc = nth (f x) reward 0%Qc;
  n_caps : forall d, d < D -> nth d caps' 0 = nth (h d) caps 0 }.

Lemma renumbered_instance T D P f g h W W' R R' reward reward' caps caps' :
  kc_instance T D P W R reward caps -> renumbered T D P f g h W W' R R' reward reward' caps caps' ->
  kc_instance T D P W' R' reward' caps'.
Proof.
  intros (HW & HR & Lr & Lc & Hp & Hfit & Htwo) [Pf Pg Ph (HW' & HR' & Lr' & Lc') EW ER Er Ec].
  assert (Row : forall d, d < D -> nth_error W d = Some (nth d W [])) by (intros; apply nth_error_nth'; destruct HW; lia).
  assert (RL : forall d, d < D -> length (nth d W []) = T).
  { intros d Hd. eapply shape_row; [exact HW|]. apply Row, Hd. }
  unfold kc_instance. repeat (split; [assumption|]). split; [|split].
  - intros d ws G. assert (Hd : d < D) by (destruct HW' as [<- _]; apply nth_error_Some; congruence).
    pose proof (shuffles_lt _ _ _ Ph Hd) as Hh.
    destruct (Hp (h d) _ (Row _ Hh)) as (t & w & Gt & Nw).
    assert (Ht : t < T) by (rewrite <- (RL _ Hh); apply nth_error_Some; congruence).
    destruct (shuffles_onto _ _ _ Pf Ht) as (x & Hx & <-).
    assert (Lw : length ws = T) by (eapply shape_row; [exact HW'|exact G]).
    exists x, w. split; [|exact Nw]. rewrite (nth_error_nth' ws 0) by lia. f_equal.
    rewrite <- (nth_error_nth _ _ 0 Gt), <- EW by auto. now rewrite (nth_error_nth _ _ [] G).
  - intros d ws cap G Gc. assert (Hd : d < D) by (destruct HW' as [<- _]; apply nth_error_Some; congruence).
    pose proof (shuffles_lt _ _ _ Ph Hd) as Hh. apply Forall_forall. intros w I. apply (In_nth _ _ 0) in I as (x & Hx & <-).
    assert (Lw : length ws = T) by (eapply shape_row; [exact HW'|exact G]). rewrite Lw in Hx.
    rewrite <- (nth_error_nth _ _ [] G), EW by auto. rewrite <- (nth_error_nth _ _ 0 Gc), Ec by auto.
    apply (proj1 (Forall_forall _ _) (Hfit (h d) _ (nth (h d) caps 0) (Row _ Hh) ltac:(apply nth_error_nth'; lia))).
    apply nth_In. rewrite RL by auto. apply shuffles_lt; auto.
  - intros d1 d2 d3 t (L1 & L2) L3. destruct (Nat.lt_ge_cases t T) as [Ht|Ht].
    + rewrite !EW by lia.
      assert (A1 : h d1 < D) by (apply shuffles_lt; auto; lia). assert (A2 : h d2 < D) by (apply shuffles_lt; auto; lia).
      assert (A3 : h d3 < D) by (apply shuffles_lt; auto; lia).
      assert (N12 : h d1 <> h d2) by (intros Q; apply (shuffles_inj D h) in Q; auto; lia).
      assert (N13 : h d1 <> h d3) by (intros Q; apply (shuffles_inj D h) in Q; auto; lia).
      assert (N23 : h d2 <> h d3) by (intros Q; apply (shuffles_inj D h) in Q; auto; lia).
      generalize dependent (h d1); intros a; generalize dependent (h d2); intros b; generalize dependent (h d3); intros c; intros.
      destruct (Nat.lt_total a b) as [A|[A|A]]; [|congruence|];
      (destruct (Nat.lt_total a c) as [B|[B|B]]; [|congruence|]);
      (destruct (Nat.lt_total b c) as [C|[C|C]]; [|congruence|]); try lia;
      match goal with
      | H1 : ?i < ?j, H2 : ?j < ?k |- _ => destruct (Htwo i j k (f t)) as [Z|[Z|Z]]; auto; tauto
      end.
    + left. apply nth_overflow. destruct (nth_in_or_default d1 W' []) as [I|I]; [|rewrite I; cbn; lia].
      destruct HW' as [_ F]. rewrite (proj1 (Forall_forall _ _) F _ I). exact Ht.
Qed.

(** positions of a department's participants in the two numberings *)
Lemma shuffled_positions (l l' : list nat) (f : nat -> nat) : NoDup l -> Permutation l (map f l') ->
  exists s, shuffles (length l') s /\ length l = length l' /\ forall i, i < length l' -> nth (s i) l 0 = f (nth i l' 0).
Proof.
  intros N P. assert (L : length l = length l') by (rewrite (Permutation_length P); apply map_length).
  apply (Permutation_nth l (map f l') 0) in P as (_ & s & B & I & E). rewrite <- L. exists s. split; [|split].
  - assert (Ns : NoDup (map s (seq 0 (length l)))).
    { apply (NoDup_nth _ (s 0)). rewrite map_length, seq_length. intros i j Hi Hj Q.
      rewrite !map_nth, !seq_nth in Q by auto. apply I; auto. }
    apply NoDup_Permutation_bis; auto.
    + now rewrite map_length.
    + intros x Hx. apply in_map_iff in Hx as (i & <- & J). apply in_seq in J. apply in_seq. specialize (B i). lia.
  - reflexivity.
  - intros i Hi. rewrite <- E by exact Hi. rewrite (nth_indep _ 0 (f 0)) by (rewrite map_length; lia). apply map_nth.
Qed.
Lemma in_participants T ws x : In x (participants T ws) <-> x < T /\ nth x ws 0 <> 0.
Proof.
  unfold participants. rewrite filter_In, in_seq, negb_true_iff, Nat.eqb_neq. intuition lia.
Qed.
Lemma participants_nodup T ws : NoDup (participants T ws).
Proof. apply NoDup_filter, seq_NoDup. Qed.
Lemma map_nodup (f : nat -> nat) l : (forall x y, In x l -> In y l -> f x = f y -> x = y) -> NoDup l -> NoDup (map f l).
Proof.
  intros I N. induction N as [|a l Na N IH]; cbn; constructor.
  - intros J. apply in_map_iff in J as (b & E & B). apply I in E; [|now right|now left]. congruence.
  - apply IH. intros x y Hx Hy. apply I; now right.
Qed.
Lemma participants_perm T f ws ws' : shuffles T f -> (forall x, x < T -> nth x ws' 0 = nth (f x) ws 0) ->
  Permutation (participants T ws) (map f (participants T ws')).
Proof.
  intros Pf E. apply NoDup_Permutation.
  - apply participants_nodup.
  - apply map_nodup; [|apply participants_nodup]. intros x y Hx Hy. apply in_participants in Hx, Hy.
    apply (shuffles_inj T f _ _ Pf); tauto.
  - intros y. rewrite in_participants, in_map_iff. split.
    + intros (Hy & N). destruct (shuffles_onto _ _ _ Pf Hy) as (x & Hx & <-). exists x. split; [reflexivity|].
      rewrite in_participants, E by auto. auto.
    + intros (x & <- & I). apply in_participants in I as (Hx & N). rewrite E in N by auto. split; [apply shuffles_lt; auto|exact N].
Qed.

(** ** One instance, two numberings *)
Section Renumbering.
Variables (T D P : nat) (f g h : nat -> nat) (W W' : list (list nat)) (R R' : list (list Qc)).
Variables (reward reward' : list Qc) (caps caps' : list nat) (flag : bool) (alpha : Qc).
Hypothesis Rn : renumbered T D P f g h W W' R R' reward reward' caps caps'.

Lemma f_lt x : x < T -> f x < T. Proof. apply shuffles_lt, (n_teams _ _ _ _ _ _ _ _ _ _ _ _ _ _ Rn). Qed.
Lemma g_lt x : x < P -> g x < P. Proof. apply shuffles_lt, (n_projects _ _ _ _ _ _ _ _ _ _ _ _ _ _ Rn). Qed.
Lemma h_lt x : x < D -> h x < D. Proof. apply shuffles_lt, (n_departments _ _ _ _ _ _ _ _ _ _ _ _ _ _ Rn). Qed.
Lemma part_of d x : d < D -> x < T -> takes_part W' d x = takes_part W (h d) (f x).
Proof. intros. unfold takes_part. now rewrite (n_weights _ _ _ _ _ _ _ _ _ _ _ _ _ _ Rn). Qed.

(** sums over departments *)
Lemma sum_departments (a b : nat -> Qc) : (forall d, d < D -> b d = a (h d)) ->
  qsum (map b (seq 0 D)) = qsum (map a (seq 0 D)).
Proof.
  intros E. transitivity (qsum (map a (map h (seq 0 D)))).
  - rewrite map_map. f_equal. apply map_ext_in. intros d Hd. apply in_seq in Hd. apply E. lia.
  - apply qsum_perm, Permutation_map, (n_departments _ _ _ _ _ _ _ _ _ _ _ _ _ _ Rn).
Qed.
Lemma other_departments d x : d < D -> x < T ->
  Permutation (map h (filter (fun d' => takes_part W' d' x) (others d (seq 0 D))))
    (filter (fun d' => takes_part W d' (f x)) (others (h d) (seq 0 D))).
Proof.
  intros Hd Hx. pose proof (n_departments _ _ _ _ _ _ _ _ _ _ _ _ _ _ Rn) as Ph. apply NoDup_Permutation.
  - apply map_nodup; [|apply NoDup_filter, NoDup_filter, seq_NoDup].
    intros a b Ha Hb. unfold others in *. rewrite !filter_In, !in_seq in *. apply (shuffles_inj D h _ _ Ph); lia.
  - apply NoDup_filter, NoDup_filter, seq_NoDup.
  - intros e. unfold others. rewrite in_map_iff, !filter_In, in_seq, negb_true_iff, Nat.eqb_neq. split.
    + intros (d' & <- & I). rewrite !filter_In, in_seq, negb_true_iff, Nat.eqb_neq in I. destruct I as ((I1 & I2) & I3).
      rewrite part_of in I3 by (auto; lia). split; [split|exact I3].
      * pose proof (h_lt d'). lia.
      * intros Q. apply (shuffles_inj D h _ _ Ph) in Q; auto; lia.
    + intros ((I1 & I2) & I3). destruct (shuffles_onto D h e Ph) as (d' & Hd' & <-); [lia|]. exists d'. split; [reflexivity|].
      rewrite !filter_In, in_seq, negb_true_iff, Nat.eqb_neq, part_of by (auto; lia). split; [split; [lia|congruence]|exact I3].
Qed.

(** the messages of the four kinds of constraints *)
Lemma department_message d x (K K' : nat -> nat -> Qc) v v' : d < D -> x < T -> takes_part W' d x = true ->
  (forall d x, d < D -> x < T -> K' d x = K (h d) (f x)) ->
  (forall i y, nth_error (participants T (nth (h d) W [])) i = Some y -> y = f x ->
     minsum_message (within (map (fun x => nth x (nth (h d) W []) 0) (participants T (nth (h d) W []))) (nth (h d) caps 0))
       (map (K (h d)) (participants T (nth (h d) W []))) i v) ->
  (forall i y, nth_error (participants T (nth d W' [])) i = Some y -> y = x ->
     minsum_message (within (map (fun x => nth x (nth d W' []) 0) (participants T (nth d W' []))) (nth d caps' 0))
       (map (K' d) (participants T (nth d W' []))) i v') ->
  v' = v.
Proof.
  intros Hd Hx Tp EK H H'. set (ws := nth (h d) W []) in *. set (ws' := nth d W' []) in *.
  assert (Ew : forall y, y < T -> nth y ws' 0 = nth (f y) ws 0) by (intros; apply (n_weights _ _ _ _ _ _ _ _ _ _ _ _ _ _ Rn); auto).
  destruct (shuffled_positions (participants T ws) (participants T ws') f) as (s & Ps & L & Es).
  - apply participants_nodup.
  - apply participants_perm; [apply (n_teams _ _ _ _ _ _ _ _ _ _ _ _ _ _ Rn)|exact Ew].
  - set (ks := participants T ws) in *. set (ks' := participants T ws') in *.
    assert (In' : In x ks').
    { apply in_participants. split; [exact Hx|]. unfold takes_part in Tp. apply negb_true_iff, Nat.eqb_neq in Tp. exact Tp. }
    apply (In_nth _ _ 0) in In' as (i & Hi & Ei).
    assert (Lt : forall j, j < length ks' -> nth j ks' 0 < T).
    { intros j Hj. assert (J : In (nth j ks' 0) ks') by (apply nth_In, Hj). apply in_participants in J. tauto. }
    assert (G' : nth_error ks' i = Some x) by (rewrite (nth_error_nth' ks' 0) by lia; now rewrite Ei).
    pose proof (shuffles_lt _ _ _ Ps Hi) as Hsi.
    assert (G : nth_error ks (s i) = Some (f x)) by (rewrite (nth_error_nth' ks 0) by lia; now rewrite Es, Ei).
    specialize (H (s i) (f x) G eq_refl). specialize (H' i x G' eq_refl).
    assert (Nm : forall (F : nat -> Qc) l j, j < length l -> nth j (map F l) 0%Qc = F (nth j l 0)).
    { intros F l j Hj. rewrite (nth_indep _ 0%Qc (F 0)) by (rewrite map_length; exact Hj). apply map_nth. }
    assert (Nw : forall (F : nat -> nat) l j, j < length l -> nth j (map F l) 0 = F (nth j l 0)).
    { intros F l j Hj. rewrite (nth_indep _ 0 (F 0)) by (rewrite map_length; exact Hj). apply map_nth. }
    eapply minsum_message_unique; [exact H'|].
    eapply (minsum_reordered (length ks') s); [exact Ps| | |exact Hi|exact H].
    + split; [rewrite map_length; exact L|]. split; [apply map_length|]. intros j Hj.
      pose proof (shuffles_lt _ _ _ Ps Hj). rewrite !Nm, Es, EK by (auto; lia). reflexivity.
    + intros y y' Y. unfold within. rewrite (n_caps _ _ _ _ _ _ _ _ _ _ _ _ _ _ Rn d Hd).
      rewrite (weight_reordered (length ks') s (map (fun x => nth x ws 0) ks) (map (fun x => nth x ws' 0) ks') y y'); [reflexivity|exact Ps| |exact Y].
      split; [rewrite map_length; exact L|]. split; [apply map_length|]. intros j Hj.
      pose proof (shuffles_lt _ _ _ Ps Hj). rewrite !Nw, Es, Ew by (auto; lia). reflexivity.
Qed.

(** positions of the coupling constraint: the team, then its projects *)
Definition lifted (i : nat) : nat := match i with 0 => 0 | S p => S (g p) end.
Lemma lifted_shuffles : shuffles (S P) lifted.
Proof.
  unfold shuffles. cbn [seq map lifted]. constructor. rewrite <- seq_shift, !map_map. cbn [lifted].
  rewrite <- map_map. apply Permutation_map, (n_projects _ _ _ _ _ _ _ _ _ _ _ _ _ _ Rn).
Qed.
Lemma coupled_reordered x x' : reordered (S P) lifted false x x' -> (coupled x <-> coupled x').
Proof.
  intros (L & L' & E). destruct x as [|b x]; [discriminate|]. destruct x' as [|b' x']; [discriminate|].
  assert (b' = b) by (specialize (E 0 ltac:(lia)); exact E). subst b'. cbn [coupled].
  rewrite (ones_reordered P g x x'); [reflexivity|apply (n_projects _ _ _ _ _ _ _ _ _ _ _ _ _ _ Rn)|].
  cbn [length] in L, L'. split; [lia|]. split; [lia|]. intros i Hi. exact (E (S i) ltac:(lia)).
Qed.
Lemma coupling_message x (to to' : Qc) (EO EO' : list (list Qc)) i v v' : x < T -> i < S P -> to' = to ->
  (forall p, p < P -> qat EO' p x = qat EO (g p) (f x)) ->
  minsum_message coupled (to :: col EO P (f x)) (lifted i) v ->
  minsum_message coupled (to' :: col EO' P x) i v' -> v' = v.
Proof.
  intros Hx Hi -> E H H'. eapply minsum_message_unique; [exact H'|].
  eapply (minsum_reordered (S P) lifted); [apply lifted_shuffles| |exact coupled_reordered|exact Hi|exact H].
  unfold col. split; [cbn; now rewrite map_length, seq_length|]. split; [cbn; now rewrite map_length, seq_length|].
  intros [|p] Hp; [reflexivity|]. cbn [nth lifted].
  assert (Q : forall F p, p < P -> nth p (map F (seq 0 P)) 0%Qc = F p).
  { intros F q Hq. rewrite (nth_indep _ 0%Qc (F 0)) by (rewrite map_length, seq_length; exact Hq).
    rewrite map_nth, seq_nth by exact Hq. reflexivity. }
  rewrite !Q by (try apply g_lt; lia). apply E. lia.
Qed.
Lemma project_message p x (EP EP' : list (list Qc)) v v' : p < P -> x < T ->
  shape P T EP -> shape P T EP' ->
  (forall p x, p < P -> x < T -> qat EP' p x = qat EP (g p) (f x)) ->
  minsum_message at_most_one (nth (g p) EP []) (f x) v ->
  minsum_message at_most_one (nth p EP' []) x v' -> v' = v.
Proof.
  intros Hp Hx S S' E H H'. eapply minsum_message_unique; [exact H'|].
  pose proof (n_teams _ _ _ _ _ _ _ _ _ _ _ _ _ _ Rn) as Pf.
  eapply (minsum_reordered T f); [exact Pf| | |exact Hx|exact H].
  - pose proof (g_lt p Hp) as Hg. split; [|split].
    + eapply shape_row; [exact S|]. apply nth_error_nth'. destruct S; lia.
    + eapply shape_row; [exact S'|]. apply nth_error_nth'. destruct S'; lia.
    + intros y Hy. apply E; auto.
  - intros y y' Y. unfold at_most_one. rewrite (ones_reordered T f y y' Pf Y). reflexivity.
Qed.
End Renumbering.

(** Renumbering the teams, the projects and the departments of an instance renumbers the results of the
    call and changes nothing else. *)
Theorem C69_renumbering : forall iters T D P f g h W W' R R' reward reward' caps caps' flag alpha,
  kc_instance T D P W R reward caps ->
  renumbered T D P f g h W W' R R' reward reward' caps caps' ->
  exists ext intr pairs ext' intr' pairs',
    package_kc T D P W (inj R) (map Fin reward) caps iters flag (Fin alpha) = Some (map Fin ext, map Fin intr, map Fin pairs) /\
    package_kc T D P W' (inj R') (map Fin reward') caps' iters flag (Fin alpha) = Some (map Fin ext', map Fin intr', map Fin pairs') /\
    (forall x, x < T -> nth x ext' 0%Qc = nth (f x) ext 0%Qc) /\
    (forall x, x < T -> nth x intr' 0%Qc = nth (f x) intr 0%Qc) /\
    (forall p x, p < P -> x < T -> nth (p * T + x) pairs' 0%Qc = nth (g p * T + f x) pairs 0%Qc) /\
    length ext = T /\ length intr = T /\ length pairs = P * T /\ length ext' = T /\ length intr' = T /\ length pairs' = P * T.
Proof.
  intros iters T D P f g h W W' R R' reward reward' caps caps' flag alpha I Rn.
  pose proof (renumbered_instance _ _ _ _ _ _ _ _ _ _ _ _ _ _ I Rn) as I'.
  destruct I as (HW & HR & Lr & Lc & Hp & Hfit & Htwo).
  destruct I' as (HW' & HR' & Lr' & Lc' & Hp' & Hfit' & Htwo').
  destruct (C50_kc_run iters T D P W R reward caps flag alpha) as (ext & pairs & K & EO & Dm & X & TO & CE & EP & PE & OT & E & Le & Lp & K0 & EO0 & SE & St & Re & Rp); auto.
  destruct (C50_kc_run iters T D P W' R' reward' caps' flag alpha) as (ext' & pairs' & K' & EO' & Dm' & X' & TO' & CE' & EP' & PE' & OT' & E' & Le' & Lp' & K0' & EO0' & SE' & St' & Re' & Rp'); auto.
  pose proof (f_lt _ _ _ _ _ _ _ _ _ _ _ _ _ _ Rn) as Hf. pose proof (g_lt _ _ _ _ _ _ _ _ _ _ _ _ _ _ Rn) as Hg.
  pose proof (h_lt _ _ _ _ _ _ _ _ _ _ _ _ _ _ Rn) as Hh.
  set (same t := (forall d x, d < D -> x < T -> qat (Dm' t) d x = qat (Dm t) (h d) (f x)) /\
    (forall d x, d < D -> x < T -> qat (X' t) d x = qat (X t) (h d) (f x)) /\
    (forall p x, p < P -> x < T -> qat (CE' t) p x = qat (CE t) (g p) (f x) /\ qat (PE' t) p x = qat (PE t) (g p) (f x)) /\
    (forall x, x < T -> nth x (OT' t) 0%Qc = nth (f x) (OT t) 0%Qc)).
  assert (Step : forall t, (forall i, i < t -> same i) ->
    (forall d x, d < D -> x < T -> qat (K' t) d x = qat (K t) (h d) (f x)) ->
    (forall p x, p < P -> x < T -> qat (EO' t) p x = qat (EO t) (g p) (f x)) ->
    same t /\ (forall d x, d < D -> x < T -> qat (K' (t + 1)) d x = qat (K (t + 1)) (h d) (f x)) /\
    (forall p x, p < P -> x < T -> qat (EO' (t + 1)) p x = qat (EO (t + 1)) (g p) (f x))).
  { intros t Past EK EE. destruct (St t) as (S1 & S2 & S3 & S4 & S5 & S6). destruct (St' t) as (S1' & S2' & S3' & S4' & S5' & S6').
    assert (A : forall d x, d < D -> x < T -> qat (Dm' t) d x = qat (Dm t) (h d) (f x)).
    { intros d x Hd Hx. pose proof (Hh d Hd) as Hhd.
      destruct (S1 (h d) (nth (h d) W []) (nth (h d) caps 0)) as (Q1 & Q2);
        [apply nth_error_nth'; destruct HW; lia|apply nth_error_nth'; lia|].
      destruct (S1' d (nth d W' []) (nth d caps' 0)) as (Q1' & Q2');
        [apply nth_error_nth'; destruct HW'; lia|apply nth_error_nth'; lia|].
      destruct (takes_part W' d x) eqn:Tp.
      - assert (Q : Fin (qat (Dm' t) d x) = Fin (qat (Dm t) (h d) (f x))); [|now injection Q].
        eapply (department_message _ _ _ _ _ _ _ _ _ _ _ _ _ _ Rn d x (qat (K t)) (qat (K' t))); auto.
        + intros i y G ->. apply Q1, G.
        + intros i y G ->. apply Q1', G.
      - rewrite Q2', Q2; auto. rewrite <- (part_of _ _ _ _ _ _ _ _ _ _ _ _ _ _ Rn) by auto. exact Tp. }
    assert (B : forall d x, d < D -> x < T -> qat (X' t) d x = qat (X t) (h d) (f x)).
    { intros d x Hd Hx. rewrite S2', S2 by auto. unfold filtered. destruct (flag && negb (Qc_eq_bool alpha 0)).
      - f_equal. apply map_ext_in. intros i Hi. apply in_seq in Hi. f_equal.
        destruct (Nat.eq_dec i t) as [->|N]; [auto|]. apply (Past i); auto; lia.
      - auto. }
    assert (C1 : forall x, x < T -> nth x (TO' t) 0%Qc = nth (f x) (TO t) 0%Qc).
    { intros x Hx. rewrite S3', S3 by auto. rewrite (n_reward _ _ _ _ _ _ _ _ _ _ _ _ _ _ Rn) by auto. f_equal.
      apply (sum_departments _ _ _ _ _ _ _ _ _ _ _ _ _ _ Rn). auto. }
    assert (C2 : forall p x, p < P -> x < T -> qat (CE' t) p x = qat (CE t) (g p) (f x)).
    { intros p x Hpp Hx. destruct (S4 (g p) (f x)) as (Q & _); auto. destruct (S4' p x) as (Q' & _); auto.
      assert (Z : Fin (qat (CE' t) p x) = Fin (qat (CE t) (g p) (f x))); [|now injection Z].
      eapply (coupling_message _ _ _ _ _ _ _ _ _ _ _ _ _ _ Rn x (nth (f x) (TO t) 0%Qc) (nth x (TO' t) 0%Qc) (EO t) (EO' t) (S p)); eauto; lia. }
    assert (C3 : forall p x, p < P -> x < T -> qat (EP' t) p x = qat (EP t) (g p) (f x)).
    { intros p x Hpp Hx. destruct (S4 (g p) (f x)) as (_ & Q & _); auto. destruct (S4' p x) as (_ & Q' & _); auto.
      rewrite Q, Q', C2 by auto. now rewrite (n_pairs _ _ _ _ _ _ _ _ _ _ _ _ _ _ Rn). }
    assert (C4 : forall p x, p < P -> x < T -> qat (PE' t) p x = qat (PE t) (g p) (f x)).
    { intros p x Hpp Hx. destruct (S4 (g p) (f x)) as (_ & _ & Q & _); auto. destruct (S4' p x) as (_ & _ & Q' & _); auto.
      assert (Z : Fin (qat (PE' t) p x) = Fin (qat (PE t) (g p) (f x))); [|now injection Z].
      eapply (project_message _ _ _ _ _ _ _ _ _ _ _ _ _ _ Rn p x (EP t) (EP' t)); eauto. }
    assert (C5 : forall p x, p < P -> x < T -> qat (EO' (t + 1)) p x = qat (EO (t + 1)) (g p) (f x)).
    { intros p x Hpp Hx. destruct (S4 (g p) (f x)) as (_ & _ & _ & Q); auto. destruct (S4' p x) as (_ & _ & _ & Q'); auto.
      rewrite Q, Q', C4 by auto. now rewrite (n_pairs _ _ _ _ _ _ _ _ _ _ _ _ _ _ Rn). }
    assert (C6 : forall x, x < T -> nth x (OT' t) 0%Qc = nth (f x) (OT t) 0%Qc).
    { intros x Hx. destruct (S5 (f x)) as (v & Q & Qv); auto. destruct (S5' x) as (v' & Q' & Qv'); auto.
      assert (Z : v' = v).
      { eapply (coupling_message _ _ _ _ _ _ _ _ _ _ _ _ _ _ Rn x (nth (f x) (TO t) 0%Qc) (nth x (TO' t) 0%Qc) (EO (t + 1)) (EO' (t + 1)) 0); eauto; lia. }
      subst v'. rewrite <- Qv in Qv'. now injection Qv'. }
    split; [split; [exact A|split; [exact B|split; [intros p x Hpp Hx; split; auto|exact C6]]]|]. split; [|exact C5].
    intros d x Hd Hx. rewrite S6', S6 by auto. rewrite (part_of _ _ _ _ _ _ _ _ _ _ _ _ _ _ Rn) by auto.
    destruct (takes_part W (h d) (f x)); [|reflexivity].
    rewrite (n_reward _ _ _ _ _ _ _ _ _ _ _ _ _ _ Rn), C6 by auto. f_equal.
    transitivity (qsum (map (fun d' => qat (X t) d' (f x)) (map h (filter (fun d' => takes_part W' d' x) (others d (seq 0 D)))))).
    - rewrite map_map. f_equal. apply map_ext_in. intros d' J. unfold others in J. rewrite !filter_In, in_seq in J. apply B; [lia|exact Hx].
    - apply qsum_perm, Permutation_map, (other_departments _ _ _ _ _ _ _ _ _ _ _ _ _ _ Rn); auto. }
  assert (All : forall t, (forall i, i < t -> same i) /\
    (forall d x, d < D -> x < T -> qat (K' t) d x = qat (K t) (h d) (f x)) /\
    (forall p x, p < P -> x < T -> qat (EO' t) p x = qat (EO t) (g p) (f x))).
  { induction t as [|t (Q1 & Q2 & Q3)].
    - split; [intros; lia|]. split.
      + intros d x Hd Hx. rewrite K0', K0 by auto. rewrite (part_of _ _ _ _ _ _ _ _ _ _ _ _ _ _ Rn) by auto.
        destruct (takes_part W (h d) (f x)); [|reflexivity]. apply (n_reward _ _ _ _ _ _ _ _ _ _ _ _ _ _ Rn); auto.
      + intros. now rewrite EO0', EO0.
    - destruct (Step t Q1 Q2 Q3) as (A & B & C). rewrite <- Nat.add_1_r. split; [|split; auto].
      intros i Hi. destruct (Nat.eq_dec i t) as [->|N]; [exact A|]. apply Q1. lia. }
  assert (Last : iters <> 0 -> same (iters - 1)) by (intros N; apply (All iters); lia).
  assert (Ex : forall x, x < T -> nth x ext' 0%Qc = nth (f x) ext 0%Qc).
  { intros x Hx. rewrite Re', Re by auto. destruct (Nat.eqb_spec iters 0) as [|N]; [reflexivity|].
    destruct (Last N) as (_ & Q2 & _ & Q4). rewrite Q4 by auto. f_equal.
    apply (sum_departments _ _ _ _ _ _ _ _ _ _ _ _ _ _ Rn). auto. }
  set (add a b := zip_with Qcplus a b).
  assert (Zf : forall a b, zip_with nadd (map Fin a) (map Fin b) = map Fin (add a b)).
  { intros a. unfold add, zip_with. induction a as [|u a IH]; intros [|v b]; cbn; auto. f_equal. apply IH. }
  assert (Zn : forall a b x, x < length a -> length a = length b -> nth x (add a b) 0%Qc = (nth x a 0 + nth x b 0)%Qc).
  { intros a. unfold add, zip_with. induction a as [|u a IH]; intros [|v b] [|x] L1 L2; cbn in *; try lia; auto. apply IH; lia. }
  assert (Zl : forall a b, length a = length b -> length (add a b) = length a).
  { intros a b L. unfold add. rewrite zip_with_length. lia. }
  exists ext, (add ext reward), pairs, ext', (add ext' reward'), pairs'. unfold package_kc. cbn zeta in E, E'.
  rewrite E, E'. cbn [bind]. rewrite !Zf. split; [reflexivity|]. split; [reflexivity|]. split; [exact Ex|].
  split; [|split; [|rewrite !Zl by lia; repeat split; assumption]].
  - intros x Hx. rewrite !Zn by (try rewrite Le; try rewrite Le'; auto; lia).
    rewrite Ex by auto. now rewrite (n_reward _ _ _ _ _ _ _ _ _ _ _ _ _ _ Rn).
  - intros p x Hpp Hx. rewrite Rp', Rp by auto. destruct (Nat.eqb_spec iters 0) as [|N]; [reflexivity|].
    destruct (Last N) as (_ & _ & Q3 & _). destruct (Q3 p x Hpp Hx) as (-> & ->).
    now rewrite (n_pairs _ _ _ _ _ _ _ _ _ _ _ _ _ _ Rn).
Qed.

(** teams 0 and 2 exchanged, the two projects exchanged, the two departments exchanged *)
Definition turn3 (x : nat) : nat := match x with 0 => 2 | 1 => 0 | 2 => 1 | _ => x end.
Definition turn2 (x : nat) : nat := match x with 0 => 1 | 1 => 0 | _ => x end.
Definition kcW69 : list (list nat) := [[2; 0; 1]; [0; 2; 1]].
Definition kcR69 : list (list Qc) := map (map zq) [[-1; -3; -5]; [-2; -4; -1]]%Z.
Definition kc_reward69 : list Qc := map zq [-3; -1; -2]%Z.
Lemma example_renumbered : renumbered 3 2 2 turn3 turn2 turn2 kcW kcW69 (kcR (-4)%Z) kcR69 kc_reward3 kc_reward69 [3; 2] [2; 3].
Proof.
  assert (S2 : shuffles 2 turn2) by (unfold shuffles; cbn; constructor).
  split; auto.
  - unfold shuffles; cbn. apply perm_trans with (1 := perm_swap 0 2 [1]). apply perm_skip. apply perm_swap.
  - repeat split; repeat constructor.
  - intros [|[|d]] [|[|[|x]]] Hd Hx; try lia; reflexivity.
  - intros [|[|d]] [|[|[|x]]] Hd Hx; try lia; reflexivity.
  - intros [|[|[|x]]] Hx; try lia; reflexivity.
  - intros [|[|d]] Hd; try lia; reflexivity.
Qed.
Definition shown69 W R reward caps :=
  option_map (fun r => (map view (fst (fst r)), map view (snd (fst r)), map view (snd r)))
    (package_kc 3 2 2 W (inj R) (map Fin reward) caps 3 true (Fin (Q2Qc (1 # 2)))).
Example C69_example :
  kc_instance 3 2 2 kcW (kcR (-4)%Z) kc_reward3 [3; 2] /\
  shown69 kcW (kcR (-4)%Z) kc_reward3 [3; 2] =
    Some ([VFin (-3); VFin (-23 # 8); VFin 7], [VFin (-4); VFin (-39 # 8); VFin 4],
          [VFin (-4); VFin (15 # 2); VFin 4; VFin (39 # 8); VFin (-39 # 8); VFin (51 # 8)]) /\
  shown69 kcW69 kcR69 kc_reward69 [2; 3] =
    Some ([VFin 7; VFin (-3); VFin (-23 # 8)], [VFin 4; VFin (-4); VFin (-39 # 8)],
          [VFin (51 # 8); VFin (39 # 8); VFin (-39 # 8); VFin 4; VFin (-4); VFin (15 # 2)]).
Proof. split; [apply kc_instance3; repeat constructor|]. split; vm_compute; reflexivity. Qed.

Print Assumptions C69_renumbering.
