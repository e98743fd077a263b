(** * Exchanges and prices for the capacitated matching problem with counting departments. *)
From Coq Require Import Permutation.
From Verif Require Import Num NumFacts Arr ArrFacts Spec SpecRun SpecGraph SpecCover SpecSelection.
From Verif Require Import P_Ksat P_PyRef_Ksat P_Assign P_Potential.
Local Open Scope nat_scope.

(** ** Lists *)
Lemma sum_cons a l : list_sum (a :: l) = a + list_sum l.
Proof. reflexivity. Qed.
Lemma sum_incl {A} (f : A -> nat) l l' : NoDup l -> incl l l' -> list_sum (map f l) <= list_sum (map f l').
Proof.
  revert l'. induction l as [|a l IH]; intros l' N I; [apply Nat.le_0_l|].
  inversion N as [|? ? Na Nl]; subst. assert (J : In a l') by (apply I; now left).
  apply in_split in J as (x & y & ->). cbn [map]. rewrite map_app, list_sum_app. cbn [map]. rewrite !sum_cons.
  assert (H : list_sum (map f l) <= list_sum (map f (x ++ y))).
  { apply IH; auto. intros b Hb. assert (K : In b (x ++ a :: y)) by (apply I; now right).
    apply in_app_iff in K as [K|[K|K]]; apply in_app_iff; auto. subst b. contradiction. }
  rewrite map_app, list_sum_app in H. lia.
Qed.
Lemma sum_filter {A} (f : A -> nat) (q : A -> bool) l :
  list_sum (map f l) = list_sum (map f (filter q l)) + list_sum (map f (filter (fun x => negb (q x)) l)).
Proof.
  induction l as [|a l IH]; [reflexivity|]. cbn [map filter]. rewrite sum_cons, IH.
  destruct (q a); cbn [negb map]; rewrite sum_cons; lia.
Qed.
Lemma qsum_filter {A} (f : A -> Qc) (q : A -> bool) l :
  qsum (map f l) = (qsum (map f (filter q l)) + qsum (map f (filter (fun x => negb (q x)) l)))%Qc.
Proof.
  induction l as [|a l IH]; [cbn; ring|]. cbn [map filter]. rewrite qsum_cons, IH.
  destruct (q a); cbn [negb map]; rewrite qsum_cons; ring.
Qed.
Lemma one_nonzero {A} (f key : A -> nat) k l : NoDup (map key l) -> (forall a, In a l -> f a <> 0 -> key a = k) ->
  list_sum (map f l) = 0 \/ exists a, In a l /\ f a <> 0 /\ list_sum (map f l) = f a.
Proof.
  induction l as [|a l IH]; intros N H; [now left|]. cbn [map] in N. inversion N as [|? ? Na Nl]; subst.
  cbn [map]. rewrite sum_cons. destruct (Nat.eq_dec (f a) 0) as [Z|Z].
  - rewrite Z. destruct IH as [E|(b & I & Hb & E)]; auto.
    + intros b I; apply H; now right.
    + right. exists b. split; [now right|]. split; [exact Hb|]. lia.
  - right. exists a. split; [now left|]. split; [exact Z|].
    assert (E : list_sum (map f l) = 0); [|lia].
    destruct IH as [E|(b & I & Hb & E)]; auto.
    + intros b I; apply H; now right.
    + exfalso. apply Na. replace (key a) with (key b); [apply in_map, I|].
      rewrite (H a (or_introl eq_refl) Z), (H b (or_intror I) Hb). reflexivity.
Qed.
Lemma nodup_key {A B} (k : A -> B) l a b : NoDup (map k l) -> In a l -> In b l -> k a = k b -> a = b.
Proof.
  induction l as [|c l IH]; [intros _ []|]. cbn [map]. intros N Ia Ib E. inversion N as [|? ? Nc Nl]; subst.
  destruct Ia as [->|Ia], Ib as [->|Ib]; auto.
  - exfalso. apply Nc. rewrite E. apply in_map, Ib.
  - exfalso. apply Nc. rewrite <- E. apply in_map, Ia.
Qed.
Lemma nodup_sub {A B} (k : A -> B) (q : A -> bool) l : NoDup (map k l) -> NoDup (map k (filter q l)).
Proof.
  induction l as [|a l IH]; [auto|]. cbn [map filter]. intros N. inversion N as [|? ? Na Nl]; subst.
  destruct (q a); [|auto]. cbn [map]. constructor; auto. intros I. apply Na. apply in_map_iff in I as (b & <- & I).
  apply in_map. apply filter_In in I. tauto.
Qed.
Lemma nodup_app {A} (l l' : list A) : NoDup l -> NoDup l' -> (forall x, In x l -> ~ In x l') -> NoDup (l ++ l').
Proof.
  induction l as [|a l IH]; [auto|]. intros N N' H. inversion N as [|? ? Na Nl]; subst. cbn [app]. constructor.
  - intros I. apply in_app_iff in I as [I|I]; [contradiction|]. apply (H a); [now left|exact I].
  - apply IH; auto. intros x I. apply H. now right.
Qed.
(** largest element of a list *)
Fixpoint qtop (a : Qc) (l : list Qc) : Qc :=
  match l with [] => a | b :: l => let m := qtop b l in if qltb m a then a else m end.
Lemma qtop_ge a l x : In x (a :: l) -> (x <= qtop a l)%Qc.
Proof.
  revert a x. induction l as [|b l IH]; intros a x; [intros [->|[]]; apply Qcle_refl|].
  cbn [qtop]. cbv zeta. intros [Q|I]; [subst x|specialize (IH b x I)]; destruct (qltb_spec (qtop b l) a); qlra.
Qed.
Lemma qtop_in a l : In (qtop a l) (a :: l).
Proof.
  revert a. induction l as [|b l IH]; intros a; [now left|]. cbn [qtop].
  destruct (qltb (qtop b l) a); [now left|right; apply IH].
Qed.

Section Dual.
Variables (T D P : nat) (W : list (list nat)) (caps : list nat) (w : nat -> nat -> Qc).
Variables (F : list (nat * nat)) (delta eps Wm : Qc).
Definition cost_of (F : list (nat * nat)) : Qc := qsum (map (fun e => w (fst e) (snd e)) F).
Hypothesis HF : selection T D P W caps F.
Hypothesis Hgap : forall F', selection T D P W caps F' -> ~ Permutation F' F -> (cost_of F + eps <= cost_of F')%Qc.
Hypothesis Hcnt : counting T D W caps.
Hypothesis Hneed : forall d t, share W d t <> 0 -> t < T.
Hypothesis Hd : (0 < delta)%Qc.
Hypothesis He : (qn (S (D + T)) * delta <= eps)%Qc.
Hypothesis HW : forall p t, p < P -> t < T -> (- Wm <= w p t /\ w p t <= Wm)%Qc.
Hypothesis HW0 : (0 <= Wm)%Qc.

Definition spent (d : nat) : nat := list_sum (map (fun e => share W d (snd e)) F).
Definition full (d : nat) : bool :=
  (nth d caps 0 <? list_sum (map (share W d) (seq 0 T))) &&
  existsb (fun t => negb (share W d t =? 0) && (nth d caps 0 <? spent d + share W d t)) (seq 0 T).
Definition chosen (t : nat) : bool := existsb (fun e => snd e =? t) F.
Definition team_of (p : nat) : option nat := option_map snd (find (fun e => fst e =? p) F).
Definition home (t : nat) : nat :=
  match find (fun d => full d && negb (share W d t =? 0)) (seq 0 D) with Some d => S d | None => 0 end.
Definition node (t : nat) : nat := S D + t.
Definition src (t : nat) : nat := if chosen t then node t else home t.
Definition dst (p : nat) : nat := match team_of p with Some t => node t | None => 0 end.

Lemma nodup_projects : NoDup (map fst F). Proof. apply HF. Qed.
Lemma nodup_teams : NoDup (map snd F). Proof. apply HF. Qed.
Lemma in_range p t : In (p, t) F -> p < P /\ t < T. Proof. apply HF. Qed.
Lemma chosen_in t : chosen t = true <-> exists p, In (p, t) F.
Proof.
  unfold chosen. rewrite existsb_exists. split.
  - intros ((p, t') & I & E). apply Nat.eqb_eq in E. cbn in E. subst t'. eauto.
  - intros (p & I). exists (p, t). split; [exact I|apply Nat.eqb_refl].
Qed.
Lemma team_of_in p t : team_of p = Some t <-> In (p, t) F.
Proof.
  unfold team_of. split.
  - destruct (find _ F) as [e|] eqn:E; [|discriminate]. cbn. intros Q. injection Q as <-.
    apply find_some in E as (I & E). apply Nat.eqb_eq in E. subst p. now destruct e.
  - intros I. destruct (find (fun e => fst e =? p) F) as [e|] eqn:E.
    + apply find_some in E as (I' & E). apply Nat.eqb_eq in E. cbn. f_equal.
      apply (nodup_key fst F e (p, t) nodup_projects) in I; auto. now subst e.
    + exfalso. apply (find_none _ _ E) in I. cbn in I. rewrite Nat.eqb_refl in I. discriminate.
Qed.
Lemma full_scarce d : full d = true -> scarce T W caps d.
Proof. unfold full, scarce. intros H. apply andb_prop in H as (H & _). now apply Nat.ltb_lt in H. Qed.
Lemma full_no_room d t : d < D -> full d = true -> share W d t <> 0 -> nth d caps 0 < spent d + share W d t.
Proof.
  intros Hdd H N. pose proof (full_scarce _ H) as S. apply andb_prop in H as (_ & H). apply existsb_exists in H as (t' & _ & H).
  apply andb_prop in H as (N' & H). apply negb_true_iff, Nat.eqb_neq in N'. apply Nat.ltb_lt in H.
  now rewrite (proj1 Hcnt d t t' Hdd S N N').
Qed.
Lemma has_room d t : d < D -> scarce T W caps d -> full d = false -> share W d t <> 0 -> spent d + share W d t <= nth d caps 0.
Proof.
  intros Hdd S H N. destruct (Nat.le_gt_cases (spent d + share W d t) (nth d caps 0)) as [|L]; [auto|]. exfalso.
  unfold full in H. rewrite (proj2 (Nat.ltb_lt _ _) S) in H. cbn [andb] in H.
  apply not_true_iff_false in H. apply H, existsb_exists. exists t. split; [apply in_seq; specialize (Hneed d t N); lia|].
  rewrite (proj2 (Nat.eqb_neq _ _) N), (proj2 (Nat.ltb_lt _ _) L). reflexivity.
Qed.
Lemma home_full d t : d < D -> full d = true -> share W d t <> 0 -> home t = S d.
Proof.
  intros Hdd H N. unfold home. destruct (find _ (seq 0 D)) as [d'|] eqn:E.
  - apply find_some in E as (I & E). apply andb_prop in E as (E & N'). apply in_seq in I.
    apply negb_true_iff, Nat.eqb_neq in N'. f_equal.
    symmetry. apply (proj2 Hcnt d d' t); auto using full_scarce. lia.
  - exfalso. assert (I : In d (seq 0 D)) by (apply in_seq; lia). apply (find_none _ _ E) in I.
    rewrite H, (proj2 (Nat.eqb_neq _ _) N) in I. discriminate.
Qed.
Lemma home_inv t d : home t = S d -> d < D /\ full d = true /\ share W d t <> 0.
Proof.
  unfold home. destruct (find _ (seq 0 D)) as [d'|] eqn:E; [|discriminate]. intros Q. injection Q as ->.
  apply find_some in E as (I & E). apply andb_prop in E as (E & N'). apply in_seq in I.
  apply negb_true_iff, Nat.eqb_neq in N'. split; [lia|auto].
Qed.
Lemma home_le t : home t < S D.
Proof. destruct (home t) as [|d] eqn:E; [lia|]. apply home_inv in E as (H & _). lia. Qed.
Lemma home_open d t : d < D -> scarce T W caps d -> full d = false -> share W d t <> 0 -> home t = 0.
Proof.
  intros Hdd S H N. destruct (home t) as [|d'] eqn:E; [reflexivity|]. exfalso. apply home_inv in E as (Hd' & H' & N').
  assert (d = d') by (apply (proj2 Hcnt d d' t); auto using full_scarce). congruence.
Qed.
Lemma node_inj t t' : node t = node t' -> t = t'.
Proof. unfold node. lia. Qed.

(** ** Moves *)
Definition memF (e : nat * nat) : bool := existsb (fun f => (fst f =? fst e) && (snd f =? snd e)) F.
Lemma memF_in e : memF e = true <-> In e F.
Proof.
  unfold memF. rewrite existsb_exists. split.
  - intros (f & I & E). apply andb_prop in E as (E1 & E2). apply Nat.eqb_eq in E1, E2. destruct e, f; cbn in *; subst. exact I.
  - intros I. exists e. rewrite !Nat.eqb_refl. auto.
Qed.
Definition step := (nat * nat * option (nat * nat))%type.
Definition from (m : step) : nat := fst (fst m).
Definition into (m : step) : nat := snd (fst m).
Definition steps_of : list step :=
  map (fun e => (src (snd e), dst (fst e), Some e)) (filter (fun e => negb (memF e)) (list_prod (seq 0 P) (seq 0 T))) ++
  map (fun e => (node (snd e), home (snd e), None)) F ++
  map (fun e => (0, node (snd e), None)) F ++
  map (fun d => (S d, 0, None)) (filter full (seq 0 D)).
Lemma step_add p t : p < P -> t < T -> ~ In (p, t) F -> In (src t, dst p, Some (p, t)) steps_of.
Proof.
  intros Hp Ht N. unfold steps_of. apply in_app_iff. left. apply in_map_iff. exists (p, t). split; [reflexivity|].
  apply filter_In. split; [apply in_prod_iff; rewrite !in_seq; lia|].
  apply negb_true_iff, not_true_iff_false. rewrite memF_in. exact N.
Qed.
Lemma step_drop e : In e F -> In (node (snd e), home (snd e), None) steps_of.
Proof. intros I. unfold steps_of. rewrite !in_app_iff. right. left. apply in_map_iff. eauto. Qed.
Lemma step_free e : In e F -> In (0, node (snd e), None) steps_of.
Proof. intros I. unfold steps_of. rewrite !in_app_iff. right. right. left. apply in_map_iff. eauto. Qed.
Lemma step_leave d : d < D -> full d = true -> In (S d, 0, None) steps_of.
Proof.
  intros Hdd H. unfold steps_of. rewrite !in_app_iff. right. right. right. apply in_map_iff. exists d. split; [reflexivity|].
  apply filter_In. split; [apply in_seq; lia|exact H].
Qed.
Lemma step_inv m : In m steps_of ->
  (exists p t, m = (src t, dst p, Some (p, t)) /\ p < P /\ t < T /\ ~ In (p, t) F) \/
  (exists e, In e F /\ m = (node (snd e), home (snd e), None)) \/
  (exists e, In e F /\ m = (0, node (snd e), None)) \/
  (exists d, d < D /\ full d = true /\ m = (S d, 0, None)).
Proof.
  unfold steps_of. rewrite !in_app_iff, !in_map_iff. intros [H|[H|[H|H]]].
  - left. destruct H as ((p, t) & <- & H). apply filter_In in H as (H & N). apply in_prod_iff in H as (H1 & H2).
    apply in_seq in H1, H2. exists p, t. split; [reflexivity|]. split; [lia|]. split; [lia|].
    rewrite <- memF_in. apply not_true_iff_false. now apply negb_true_iff in N.
  - right. left. destruct H as (e & <- & H). eauto.
  - right. right. left. destruct H as (e & <- & H). eauto.
  - right. right. right. destruct H as (d & <- & H). apply filter_In in H as (I & H). apply in_seq in I. exists d. split; [lia|auto].
Qed.
Lemma step_range m : In m steps_of -> from m < S (D + T) /\ into m < S (D + T).
Proof.
  intros H. apply step_inv in H as [(p & t & -> & Hp & Ht & _)|[(e & I & ->)|[(e & I & ->)|(d & Hdd & _ & ->)]]]; unfold from, into; cbn [fst snd].
  - unfold src, dst, node. split.
    + destruct (chosen t); [lia|]. pose proof (home_le t). lia.
    + destruct (team_of p) as [t'|] eqn:E; [|lia]. apply team_of_in, in_range in E. lia.
  - destruct e as (p, t). apply in_range in I. cbn [snd]. pose proof (home_le t). unfold node. lia.
  - destruct e as (p, t). apply in_range in I. cbn [snd]. unfold node. lia.
  - lia.
Qed.

(** what is given up by entering a node, and the cost of a step *)
Definition given (l : nat) : Qc :=
  match find (fun e => node (snd e) =? l) F with Some e => w (fst e) (snd e) | None => 0%Qc end.
Definition price (o : option (nat * nat)) : Qc := match o with Some e => w (fst e) (snd e) | None => 0%Qc end.
Definition value (m : step) : Qc := (given (into m) - price (snd m) + delta)%Qc.
Lemma given_node p t : In (p, t) F -> given (node t) = w p t.
Proof.
  intros I. unfold given. destruct (find _ F) as [e|] eqn:E.
  - apply find_some in E as (I' & E). apply Nat.eqb_eq, node_inj in E.
    apply (nodup_key snd F e (p, t) nodup_teams) in I; auto. now subst e.
  - exfalso. apply (find_none _ _ E) in I. cbn [snd] in I. rewrite Nat.eqb_refl in I. discriminate.
Qed.
Lemma given_small l : l < S D -> given l = 0%Qc.
Proof.
  intros H. unfold given. destruct (find _ F) as [e|] eqn:E; [|reflexivity].
  apply find_some in E as (I' & E). apply Nat.eqb_eq in E. unfold node in E. lia.
Qed.
(** the cost given up along a set of nodes *)
Lemma find_filter {A} (q : A -> bool) (k : A -> nat) l : NoDup (map k l) ->
  (forall a b, In a l -> In b l -> q a = true -> q b = true -> k a = k b) ->
  filter q l = match find q l with Some a => [a] | None => [] end.
Proof.
  induction l as [|a l IH]; [reflexivity|]. cbn [map filter find]. intros N H. inversion N as [|? ? Na Nl]; subst.
  destruct (q a) eqn:E.
  - f_equal. destruct (filter q l) as [|b r] eqn:Q; [reflexivity|]. exfalso.
    assert (I : In b (filter q l)) by (rewrite Q; now left). apply filter_In in I as (I & Hb). apply Na.
    rewrite (H a b); auto; [apply in_map, I|now left|now right].
  - apply IH; auto. intros x y Hx Hy. apply H; now right.
Qed.
Lemma given_sum c : NoDup c -> qsum (map given c) = cost_of (filter (fun e => existsb (Nat.eqb (node (snd e))) c) F).
Proof.
  intros N. induction N as [|l c Nl N IH].
  - cbn [map existsb]. unfold cost_of. assert (E : filter (fun _ : nat * nat => false) F = []) by (clear; induction F; auto). now rewrite E.
  - cbn [map existsb]. rewrite qsum_cons, IH. clear IH. unfold cost_of.
    rewrite (qsum_filter _ (fun e => node (snd e) =? l) (filter (fun e => (node (snd e) =? l) || _) F)).
    rewrite !filter_filter. f_equal.
    + rewrite (filter_ext _ (fun e => node (snd e) =? l)) by (intros e; destruct (node (snd e) =? l); reflexivity).
      unfold given. rewrite (find_filter _ snd F nodup_teams).
      * destruct (find _ F) as [e|]; cbn; [ring|reflexivity].
      * intros a b _ _ A B. apply Nat.eqb_eq in A, B. apply node_inj. congruence.
    + f_equal. f_equal. apply filter_ext. intros e. destruct (Nat.eqb_spec (node (snd e)) l) as [Q|Q]; [|reflexivity].
      cbn [negb andb orb]. apply not_true_iff_false. rewrite existsb_exists. intros (y & I & E). apply Nat.eqb_eq in E. congruence.
Qed.

(** ** A closed chain of steps gives another selection *)
Definition news (M : list step) : list (nat * nat) :=
  flat_map (fun m : step => match snd m with Some e => [e] | None => [] end) M.
Lemma in_news M e : In e (news M) <-> exists m, In m M /\ snd m = Some e.
Proof.
  unfold news. rewrite in_flat_map. split.
  - intros (m & I & J). destruct (snd m) as [f|] eqn:Q; [|destruct J]. destruct J as [->|[]]. eauto.
  - intros (m & I & Q). exists m. split; [exact I|]. rewrite Q. now left.
Qed.
Lemma news_keys (k : step -> nat) (key : nat * nat -> nat) M : (forall m e, In m M -> snd m = Some e -> key e = k m) ->
  NoDup (map k M) -> NoDup (map key (news M)).
Proof.
  induction M as [|m M IH]; intros H N; [constructor|]. cbn [map] in N. inversion N as [|? ? Nm NM]; subst.
  assert (IH' : NoDup (map key (news M))) by (apply IH; auto; intros; apply H; auto; now right).
  change (news (m :: M)) with (match snd m with Some e => [e] | None => [] end ++ news M).
  destruct (snd m) as [e|] eqn:Q; [|exact IH']. cbn [app map]. constructor; [|exact IH'].
  intros I. apply in_map_iff in I as (f & E & I). apply in_news in I as (m' & I & Q').
  apply Nm. rewrite <- (H m e) by (auto; now left). rewrite <- E. rewrite (H m' f) by (auto; now right). apply in_map, I.
Qed.
Lemma news_cost M : qsum (map (fun m : step => price (snd m)) M) = cost_of (news M).
Proof.
  induction M as [|m M IH]; [reflexivity|]. cbn [map]. rewrite qsum_cons, IH.
  change (news (m :: M)) with (match snd m with Some e => [e] | None => [] end ++ news M). unfold cost_of.
  rewrite map_app, qsum_app. unfold price. destruct (snd m) as [e|]; cbn; ring.
Qed.
Lemma value_sum M : qsum (map value M) = (qsum (map given (map into M)) - qsum (map (fun m : step => price (snd m)) M) + qn (length M) * delta)%Qc.
Proof. unfold value. induction M as [|m r IH]; [cbn; ring|]. cbn [map length qn]. rewrite !qsum_cons, IH. ring. Qed.

Section Chain.
Variable M : list step.
Hypothesis HM : forall m, In m M -> In m steps_of.
Hypothesis HN : NoDup (map from M).
Hypothesis HP : Permutation (map into M) (map from M).
Let on (l : nat) : bool := existsb (Nat.eqb l) (map from M).
Lemma on_spec l : on l = true <-> exists m, In m M /\ from m = l.
Proof.
  unfold on. rewrite existsb_exists. split.
  - intros (x & I & E). apply Nat.eqb_eq in E. subst x. apply in_map_iff in I as (m & E & I). eauto.
  - intros (m & I & E). exists l. split; [|apply Nat.eqb_refl]. rewrite <- E. apply in_map, I.
Qed.
Lemma on_into l : on l = true <-> exists m, In m M /\ into m = l.
Proof.
  unfold on. rewrite existsb_exists. split.
  - intros (x & I & E). apply Nat.eqb_eq in E. subst x. apply (Permutation_in _ (Permutation_sym HP)) in I.
    apply in_map_iff in I as (m & E & I). eauto.
  - intros (m & I & E). exists l. split; [|apply Nat.eqb_refl]. apply (Permutation_in _ HP). rewrite <- E. apply in_map, I.
Qed.
Definition kept : list (nat * nat) := filter (fun e => negb (on (node (snd e)))) F.
Definition gone : list (nat * nat) := filter (fun e => on (node (snd e))) F.
Definition changed : list (nat * nat) := kept ++ news M.
Lemma news_inv e : In e (news M) -> exists m, In m M /\ snd m = Some e /\ from m = src (snd e) /\ into m = dst (fst e) /\
  fst e < P /\ snd e < T /\ ~ In e F.
Proof.
  intros I. apply in_news in I as (m & I & Q). exists m. split; [exact I|]. split; [exact Q|].
  apply HM, step_inv in I as [(p & t & -> & Hp & Ht & N)|[(f & _ & ->)|[(f & _ & ->)|(d & _ & _ & ->)]]]; try discriminate.
  cbn in Q. injection Q as <-. cbn. auto.
Qed.
Lemma in_kept e : In e kept <-> In e F /\ on (node (snd e)) = false.
Proof. unfold kept. rewrite filter_In, negb_true_iff. reflexivity. Qed.
Lemma news_src : NoDup (map (fun e => src (snd e)) (news M)).
Proof.
  apply (news_keys from); [|exact HN]. intros m e I Q.
  apply HM, step_inv in I as [(p & t & -> & Hp & Ht & N)|[(f & _ & ->)|[(f & _ & ->)|(d & _ & _ & ->)]]]; try discriminate.
  cbn in Q. injection Q as <-. reflexivity.
Qed.
Lemma news_dst : NoDup (map (fun e => dst (fst e)) (news M)).
Proof.
  apply (news_keys into); [|apply (Permutation_NoDup (Permutation_sym HP)), HN]. intros m e I Q.
  apply HM, step_inv in I as [(p & t & -> & Hp & Ht & N)|[(f & _ & ->)|[(f & _ & ->)|(d & _ & _ & ->)]]]; try discriminate.
  cbn in Q. injection Q as <-. reflexivity.
Qed.
Lemma news_teams : NoDup (map snd (news M)).
Proof. apply (NoDup_map_inv src). rewrite map_map. exact news_src. Qed.
Lemma news_projects : NoDup (map fst (news M)).
Proof. apply (NoDup_map_inv dst). rewrite map_map. exact news_dst. Qed.
Lemma changed_teams : NoDup (map snd changed).
Proof.
  unfold changed. rewrite map_app. apply nodup_app.
  - apply nodup_sub, nodup_teams.
  - exact news_teams.
  - intros t I J. apply in_map_iff in I as ((p, t') & E & I). cbn in E. subst t'. apply in_kept in I as (I & O). cbn [snd] in O.
    apply in_map_iff in J as (e & E & J). apply news_inv in J as (m & Im & _ & Em & _). rewrite E in Em.
    assert (C : chosen t = true) by (apply chosen_in; eauto). unfold src in Em. rewrite C in Em.
    assert (O' : on (node t) = true) by (apply on_spec; eauto). congruence.
Qed.
Lemma changed_projects : NoDup (map fst changed).
Proof.
  unfold changed. rewrite map_app. apply nodup_app.
  - apply nodup_sub, nodup_projects.
  - exact news_projects.
  - intros p I J. apply in_map_iff in I as ((p', t) & E & I). cbn in E. subst p'. apply in_kept in I as (I & O). cbn [snd] in O.
    apply in_map_iff in J as (e & E & J). apply news_inv in J as (m & Im & _ & _ & Em & _). rewrite E in Em.
    unfold dst in Em. rewrite (proj2 (team_of_in p t) I) in Em.
    assert (O' : on (node t) = true) by (apply on_into; eauto). congruence.
Qed.
Lemma changed_range p t : In (p, t) changed -> p < P /\ t < T.
Proof.
  intros I. apply in_app_iff in I as [I|I].
  - apply in_kept in I as (I & _). apply in_range, I.
  - apply news_inv in I as (m & _ & _ & _ & _ & H1 & H2 & _). auto.
Qed.
(** chosen teams with a new project are among those that gave up theirs *)
Lemma renewed_gone t : In t (map snd (filter (fun e => chosen (snd e)) (news M))) -> In t (map snd gone).
Proof.
  intros I. apply in_map_iff in I as (e & <- & I). apply filter_In in I as (I & C).
  apply news_inv in I as (m & Im & _ & Em & _). unfold src in Em. rewrite C in Em.
  apply chosen_in in C as (p & C). apply in_map_iff. exists (p, snd e). split; [reflexivity|].
  apply filter_In. split; [exact C|]. apply on_spec. eauto.
Qed.
Lemma split_spent d : spent d = list_sum (map (fun e => share W d (snd e)) kept) + list_sum (map (fun e => share W d (snd e)) gone).
Proof.
  unfold spent, kept, gone. rewrite (sum_filter _ (fun e => on (node (snd e)))). lia.
Qed.
Lemma changed_capacity d : d < D -> list_sum (map (fun e => share W d (snd e)) changed) <= nth d caps 0.
Proof.
  intros Hdd. destruct (Nat.le_gt_cases (list_sum (map (share W d) (seq 0 T))) (nth d caps 0)) as [L|L].
  { eapply Nat.le_trans; [|exact L]. rewrite <- (map_map snd (share W d)). apply sum_incl; [apply changed_teams|].
    intros t I. apply in_map_iff in I as ((p, t') & <- & I). apply changed_range in I. apply in_seq. cbn. lia. }
  assert (Sc : scarce T W caps d) by exact L. clear L.
  assert (Fd : spent d <= nth d caps 0) by (apply HF, Hdd).
  pose proof (split_spent d) as Su.
  unfold changed. rewrite map_app, list_sum_app.
  rewrite (sum_filter _ (fun e => chosen (snd e)) (news M)).
  set (A := map snd (filter (fun e => chosen (snd e)) (news M))).
  assert (NA : NoDup A) by (apply nodup_sub, news_teams).
  assert (IA : incl A (map snd gone)) by (intros t; apply renewed_gone).
  assert (SA : list_sum (map (fun e => share W d (snd e)) (filter (fun e => chosen (snd e)) (news M))) = list_sum (map (share W d) A))
    by (unfold A; now rewrite map_map).
  assert (SG : list_sum (map (fun e => share W d (snd e)) gone) = list_sum (map (share W d) (map snd gone))) by (now rewrite map_map).
  rewrite SA. pose proof (sum_incl (share W d) A (map snd gone) NA IA) as LA.
  set (U := filter (fun e => negb (chosen (snd e))) (news M)).
  assert (NU : NoDup (map (fun e => src (snd e)) U)) by (apply nodup_sub, news_src).
  assert (HU : forall e, In e U -> In e (news M) /\ src (snd e) = home (snd e)).
  { intros e I. apply filter_In in I as (I & C). split; [exact I|]. unfold src. apply negb_true_iff in C. now rewrite C. }
  destruct (full d) eqn:Fu.
  - destruct (one_nonzero (fun e => share W d (snd e)) (fun e => src (snd e)) (S d) U NU) as [E|(e & I & N & E)].
    { intros e I N. destruct (HU e I) as (_ & ->). apply home_full; auto. }
    { rewrite E. lia. }
    rewrite E. destruct (HU e I) as (J & Es). rewrite (home_full d) in Es by auto.
    apply news_inv in J as (m & Im & _ & Em & _). rewrite Es in Em.
    assert (O : on (S d) = true) by (apply on_spec; eauto). apply on_into in O as (m' & Im' & Em').
    pose proof (HM _ Im') as St.
    apply step_inv in St as [(p & t & -> & _)|[(f & If & Q)|[(f & _ & ->)|(d' & _ & _ & ->)]]].
    + exfalso. cbn in Em'. unfold dst in Em'. destruct (team_of p); [unfold node in Em'; lia|discriminate].
    + assert (Hf : home (snd f) = S d) by (rewrite Q in Em'; exact Em'). apply home_inv in Hf as (_ & _ & Nf).
      assert (X : list_sum (map (share W d) (snd f :: A)) <= list_sum (map (share W d) (map snd gone))).
      { apply sum_incl.
        - constructor; [|exact NA]. intros If'. apply in_map_iff in If' as (g & Eg & Ig). apply filter_In in Ig as (Ig & Cg).
          apply news_inv in Ig as (m2 & Im2 & Q2 & E2 & _). unfold src in E2. rewrite Cg, Eg in E2.
          assert (m2 = m') by (apply (nodup_key from M); auto; rewrite E2, Q; reflexivity). subst m2. rewrite Q in Q2. discriminate.
        - intros t [<-|It]; [|apply IA, It]. apply in_map. apply filter_In. split; [exact If|]. apply on_spec.
          exists m'. split; [exact Im'|]. now rewrite Q. }
      cbn [map] in X. rewrite sum_cons in X. rewrite (proj1 Hcnt d (snd e) (snd f)) by auto. lia.
    + exfalso. cbn in Em'. unfold node in Em'. lia.
    + discriminate.
  - destruct (one_nonzero (fun e => share W d (snd e)) (fun e => src (snd e)) 0 U NU) as [E|(e & I & N & E)].
    { intros e I N. destruct (HU e I) as (_ & ->). apply (home_open d); auto. }
    { rewrite E. lia. }
    rewrite E. pose proof (has_room d (snd e) Hdd Sc Fu N). lia.
Qed.
Lemma changed_selection : selection T D P W caps changed.
Proof.
  split; [apply changed_projects|]. split; [apply changed_teams|]. split; [apply changed_range|apply changed_capacity].
Qed.
Lemma changed_differs : M <> [] -> ~ Permutation changed F.
Proof.
  intros Ne Pm.
  assert (A : forall e, In e F -> on (node (snd e)) = true -> False).
  { intros e I O. apply (Permutation_in _ (Permutation_sym Pm)) in I as J. apply in_app_iff in J as [J|J].
    - apply in_kept in J as (_ & J). congruence.
    - apply news_inv in J as (_ & _ & _ & _ & _ & _ & _ & N). contradiction. }
  assert (Im : exists m, In m M) by (revert Ne; generalize M; intros [|m r] Ne; [contradiction|exists m; now left]).
  destruct Im as (m & Im). pose proof (HM m Im) as St.
  assert (B : forall f, In f F -> In (node (snd f), home (snd f), None) M -> False).
  { intros f If I. apply (A f If). apply on_spec. eauto. }
  apply step_inv in St as [(p & t & Q & _ & _ & N)|[(f & If & Q)|[(f & If & Q)|(d & Hdd & _ & Q)]]].
  - apply N. apply (Permutation_in _ Pm). apply in_app_iff. right. apply in_news. exists m. split; [exact Im|]. now rewrite Q.
  - apply (B f If). now rewrite <- Q.
  - apply (A f If). apply on_into. exists m. split; [exact Im|]. now rewrite Q.
  - assert (O : on (S d) = true) by (apply on_spec; exists m; split; [exact Im|now rewrite Q]).
    apply on_into in O as (m' & Im' & E').
    pose proof (HM m' Im') as St. apply step_inv in St as [(p & t & Q' & _)|[(f & If & Q')|[(f & If & Q')|(d' & _ & _ & Q')]]].
    + rewrite Q' in E'. cbn in E'. unfold dst in E'. destruct (team_of p); [unfold node in E'; lia|discriminate].
    + apply (B f If). now rewrite <- Q'.
    + rewrite Q' in E'. cbn in E'. unfold node in E'. lia.
    + rewrite Q' in E'. discriminate.
Qed.
Lemma chain_value : M <> [] -> (qsum (map value M) <= 0)%Qc.
Proof.
  intros Ne. pose proof (Hgap changed changed_selection (changed_differs Ne)) as G.
  rewrite value_sum, news_cost, (qsum_perm _ _ (Permutation_map given HP)), (given_sum _ HN).
  assert (C : cost_of F = (cost_of kept + cost_of (filter (fun e => existsb (Nat.eqb (node (snd e))) (map from M)) F))%Qc).
  { unfold cost_of, kept, on. rewrite (qsum_filter _ (fun e => existsb (Nat.eqb (node (snd e))) (map from M)) F). ring. }
  assert (C' : cost_of changed = (cost_of kept + cost_of (news M))%Qc).
  { unfold cost_of, changed. now rewrite map_app, qsum_app. }
  assert (L : (qn (length M) * delta <= eps)%Qc).
  { eapply Qcle_trans; [|exact He]. apply mul_mono; [|qlra]. apply qn_mono.
    rewrite <- (map_length from), <- (seq_length (S (D + T)) 0). apply NoDup_incl_length; [exact HN|].
    intros l I. apply in_map_iff in I as (m & <- & I). apply HM, step_range in I. apply in_seq. lia. }
  rewrite C, C' in G. qlra.
Qed.
End Chain.

(** ** Prices *)
Definition ends (i l : nat) : list step := filter (fun m => (from m =? i) && (into m =? l)) steps_of.
Definition linked (i l : nat) : bool := match ends i l with [] => false | _ => true end.
Definition gain (i l : nat) : Qc := match map value (ends i l) with [] => 0%Qc | a :: r => qtop a r end.
Lemma in_ends m i l : In m (ends i l) <-> In m steps_of /\ from m = i /\ into m = l.
Proof. unfold ends. rewrite filter_In, andb_true_iff, !Nat.eqb_eq. tauto. Qed.
Lemma gain_ge m : In m steps_of -> linked (from m) (into m) = true /\ (value m <= gain (from m) (into m))%Qc.
Proof.
  intros I. assert (J : In m (ends (from m) (into m))) by (apply in_ends; auto). split.
  - unfold linked. destruct (ends _ _); [destruct J|reflexivity].
  - unfold gain. apply (in_map value) in J. destruct (map value _) as [|a r]; [destruct J|]. apply qtop_ge, J.
Qed.
Lemma gain_in i l : linked i l = true -> exists m, In m steps_of /\ from m = i /\ into m = l /\ value m = gain i l.
Proof.
  unfold linked, gain. destruct (ends i l) as [|m r] eqn:E; [discriminate|]. intros _. cbn [map].
  pose proof (qtop_in (value m) (map value r)) as I. change (value m :: map value r) with (map value (m :: r)) in I.
  apply in_map_iff in I as (m' & Q & I). rewrite <- E in I. apply in_ends in I. exists m'. tauto.
Qed.
Lemma gain_chain (c : list (nat * nat)) : (forall x y, In (x, y) c -> linked x y = true) -> exists M,
  (forall m, In m M -> In m steps_of) /\ map from M = map fst c /\ map into M = map snd c /\
  map value M = map (fun e => gain (fst e) (snd e)) c.
Proof.
  induction c as [|(x, y) c IH]; intros H; [exists []; cbn; tauto|].
  destruct IH as (M & H1 & H2 & H3 & H4); [intros; apply H; now right|].
  destruct (gain_in x y) as (m & I & Q1 & Q2 & Q3); [apply H; now left|].
  exists (m :: M). split; [intros m' [<-|J]; auto|]. cbn [map fst snd]. now rewrite Q1, Q2, Q3, H2, H3, H4.
Qed.
Lemma combine_fst {A B} (l : list A) (l' : list B) : length l = length l' -> map fst (combine l l') = l /\ map snd (combine l l') = l'.
Proof.
  revert l'. induction l as [|a l IH]; intros [|b l'] E; try discriminate; [auto|]. injection E as E.
  destruct (IH l' E) as (A1 & A2). cbn. now rewrite A1, A2.
Qed.
Lemma value_le m : In m steps_of -> (value m <= (1 + 1) * Wm + delta)%Qc.
Proof.
  intros I. assert (Gv : (given (into m) <= Wm)%Qc).
  { unfold given. destruct (find _ F) as [e|] eqn:E; [|exact HW0]. apply find_some in E as (J & _).
    destruct e as (p, t). apply in_range in J. apply HW; tauto. }
  assert (Pv : (- Wm <= price (snd m))%Qc).
  { apply step_inv in I as [(p & t & -> & Hp & Ht & _)|[(e & _ & ->)|[(e & _ & ->)|(d & _ & _ & ->)]]]; cbn [snd price].
    - apply HW; auto.
    - qlra.
    - qlra.
    - qlra. }
  unfold value. qlra.
Qed.
Definition far : Qc := (qn (S (D + T)) * ((1 + 1) * Wm + delta))%Qc.
Lemma levels : exists h : nat -> Qc, h 0 = 0%Qc /\ (forall m, In m steps_of -> (h (from m) + value m <= h (into m))%Qc) /\
  (forall i, i < S (D + T) -> (- far <= h i /\ h i <= far)%Qc).
Proof.
  destruct (heights (S (D + T)) linked gain ((1 + 1) * Wm + delta)%Qc) with (o := 0) as (h & H0 & H1 & H2).
  - intros i l A. apply gain_in in A as (m & I & <- & <- & _). apply step_range, I.
  - intros i t N H. destruct (gain_chain (combine (i :: t) (t ++ [i])) H) as (M & M1 & M2 & M3 & M4).
    destruct (combine_fst (i :: t) (t ++ [i])) as (C1 & C2); [rewrite app_length; cbn; lia|].
    rewrite walk_closed, <- M4. rewrite C1 in M2. rewrite C2 in M3.
    apply chain_value; auto.
    + now rewrite M2.
    + rewrite M2, M3. apply Permutation_sym, Permutation_cons_append.
    + intros ->. discriminate.
  - intros i l A. apply gain_in in A as (m & I & _ & _ & <-). apply value_le, I.
  - qlra.
  - lia.
  - exists h. split; [exact H0|]. split; [|exact H2]. intros m I. destruct (gain_ge m I) as (A & B). specialize (H1 _ _ A). qlra.
Qed.

(** prices [a] of the teams' places, [u] of the teams and [b] of the projects *)
Lemma prices : exists a u b : nat -> Qc,
  (forall p t, In (p, t) F -> w p t = (a t + u t + b p)%Qc) /\
  (forall p t, p < P -> t < T -> ~ In (p, t) F -> (a t + u t + b p + delta <= w p t)%Qc) /\
  (forall t, chosen t = true -> (u t <= - delta)%Qc) /\ (forall t, chosen t = false -> u t = 0%Qc) /\
  (forall p t, In (p, t) F -> (b p <= - delta)%Qc) /\ (forall p, team_of p = None -> b p = 0%Qc) /\
  (forall t, (a t <= 0)%Qc) /\
  (forall d t t', d < D -> full d = true -> share W d t <> 0 -> share W d t' <> 0 -> a t = a t') /\
  (forall t, (forall d, d < D -> full d = true -> share W d t = 0) -> a t = 0%Qc) /\
  (forall t, (- far <= a t)%Qc) /\ (forall t, (- (far + far) <= u t)%Qc) /\ (forall p, (- (Wm + far) <= b p)%Qc).
Proof.
  destruct levels as (h & H0 & H1 & H2).
  assert (Hf : (0 <= far)%Qc).
  { unfold far. pose proof (mul_mono 0 (qn (S (D + T))) ((1 + 1) * Wm + delta)%Qc (qn_nonneg _)) as X.
    replace (0 * ((1 + 1) * Wm + delta))%Qc with 0%Qc in X by ring. apply X. qlra. }
  exists (fun t => h (home t)), (fun t => if chosen t then (h (node t) - h (home t))%Qc else 0%Qc),
    (fun p => match team_of p with Some t => (w p t - h (node t))%Qc | None => 0%Qc end).
  assert (Hh : forall t, (- far <= h (home t) /\ h (home t) <= 0)%Qc).
  { intros t. split; [apply H2; pose proof (home_le t); lia|]. destruct (home t) as [|d] eqn:E; [rewrite H0; qlra|].
    apply home_inv in E as (E1 & E2 & _). pose proof (H1 _ (step_leave d E1 E2)) as X. unfold value, from, into in X. cbn [fst snd price] in X.
    rewrite given_small, H0 in X by lia. qlra. }
  split; [|split; [|split; [|split; [|split; [|split; [|split; [|split; [|split; [|split; [|split]]]]]]]]]].
  - intros p t I. rewrite (proj2 (chosen_in t)) by eauto. rewrite (proj2 (team_of_in p t) I). ring.
  - intros p t Hp Ht N. pose proof (H1 _ (step_add p t Hp Ht N)) as X. unfold value, from, into in X. cbn [fst snd price] in X.
    unfold src, dst in X. destruct (chosen t), (team_of p) as [t'|] eqn:E.
    + apply team_of_in in E. rewrite (given_node p t' E) in X. qlra.
    + rewrite given_small, H0 in X by lia. qlra.
    + apply team_of_in in E. rewrite (given_node p t' E) in X. qlra.
    + rewrite given_small, H0 in X by lia. qlra.
  - intros t C. rewrite C. apply chosen_in in C as (p & I). pose proof (H1 _ (step_drop _ I)) as X.
    unfold value, from, into in X. cbn [fst snd price] in X. rewrite given_small in X by apply home_le. qlra.
  - intros t C. now rewrite C.
  - intros p t I. rewrite (proj2 (team_of_in p t) I). pose proof (H1 _ (step_free _ I)) as X.
    unfold value, from, into in X. cbn [fst snd price] in X. rewrite (given_node p t I), H0 in X. qlra.
  - intros p E. now rewrite E.
  - intros t. apply Hh.
  - intros d t t' Hdd Hu N N'. now rewrite (home_full d t), (home_full d t').
  - intros t Z. destruct (home t) as [|d] eqn:E; [exact H0|]. exfalso. apply home_inv in E as (E1 & E2 & E3). auto.
  - intros t. apply Hh.
  - intros t. destruct (chosen t) eqn:C; [|qlra]. apply chosen_in in C as (p & I). apply in_range in I.
    destruct (H2 (node t)) as (X & _); [unfold node; lia|]. pose proof (Hh t). qlra.
  - intros p. destruct (team_of p) as [t|] eqn:E; [|qlra]. apply team_of_in, in_range in E as (Hp & Ht).
    destruct (H2 (node t)) as (_ & X); [unfold node; lia|]. pose proof (HW p t Hp Ht). qlra.
Qed.
End Dual.
