(** * TSP post-processing: the paths found by [get_paths] *)
From Coq Require Import Permutation.
From Verif Require Import Num NumFacts Arr ArrFacts Spec SpecGraph SpecTour P_Ksat P_Equality P_Runs.
From Verif Require Import M_InOut M_Tsp_Loops M_Tsp_Run P_Tsp_Run M_Tsp_Py M_Ksat_Py P_Ksat_Py M_Tsp_Post P_Tsp_Tour P_Tsp_Paths.
Local Open Scope nat_scope.

Lemma in_enumerate : forall {A} (l : list A) i x, In (i, x) (enumerate l) <-> get l i = Some x.
Proof.
  intros A l i x. unfold enumerate, get.
  assert (G : forall l s, In (i, x) (combine (seq s (length l)) l) <-> s <= i /\ nth_error l (i - s) = Some x).
  { clear. induction l as [|y l IH]; intros s; cbn.
    - split; [tauto|]. intros (_ & H). destruct (i - s); discriminate.
    - rewrite IH. split.
      + intros [Q|(L & Q)].
        * injection Q as -> ->. split; [lia|]. now rewrite Nat.sub_diag.
        * split; [lia|]. replace (i - s) with (S (i - S s)) by lia. exact Q.
      + intros (L & Q). destruct (Nat.eq_dec i s) as [->|N].
        * rewrite Nat.sub_diag in Q. injection Q as ->. now left.
        * right. split; [lia|]. replace (i - s) with (S (i - S s)) in Q by lia. exact Q. }
  rewrite G, Nat.sub_0_r. split; [tauto|intros; split; [lia|assumption]].
Qed.
Lemma enumerate_nodup : forall {A} (l : list A), NoDup (map fst (enumerate l)).
Proof.
  intros A l. unfold enumerate. assert (Q : forall (a : list nat) (b : list A), length a = length b -> map fst (combine a b) = a).
  { intros a; induction a as [|x a IH]; intros [|y b] L; try discriminate; [reflexivity|]. cbn. f_equal. apply IH. now injection L. }
  rewrite Q by apply seq_length. apply seq_NoDup.
Qed.

Section Walks.
Variable R : list (nat * nat).
Hypothesis NR : NoDup R.
Hypothesis LR : linear R.
Let g := construct_graph R.
Let K := keys g.

Lemma nodes_K : forall u v, In (u, v) R -> In u K /\ In v K.
Proof.
  intros u v H. unfold K, g. pose proof (proj1 (proj2 (construct_graph_ok R))) as X.
  rewrite !X. split; eauto.
Qed.
Lemma outs_one : forall u, outs R u = [] \/ exists v, outs R u = [v].
Proof.
  intros u. assert (N : NoDup (outs R u)).
  { rewrite <- (map_id (outs R u)). pose proof (NoDup_filter (fun e => fst e =? u) NR) as X.
    rewrite <- outs_edges in X. apply NoDup_map_inv in X. now rewrite map_id. }
  destruct (outs R u) as [|v [|w l]] eqn:Q; [now left|right; eauto|].
  exfalso. assert (v = w).
  { apply (proj1 LR u); apply in_outs; rewrite Q; [now left|right; now left]. }
  subst. inversion N as [|? ? X _]. apply X; now left.
Qed.

Lemma find_ok : forall fuel node visited path seen,
  NoDup path -> (forall x, mem x visited = true <-> In x path) -> ~ In node path -> In node K ->
  incl path K -> length g - length path <= fuel ->
  exists q q' res, find_paths fuel g node visited path seen = Some (seen ++ q, res) /\ q = node :: q' /\
    NoDup (path ++ q) /\ incl q K /\ path_in R q /\
    match res with
    | Some p => p = path ++ q /\ sink R (last q 0)
    | None => exists z, In (last q 0, z) R /\ In z (path ++ q)
    end.
Proof.
  induction fuel as [|fuel IH]; intros node visited path seen Np Hv Hn Hk Hp Hf.
  - exfalso. assert (X : length (node :: path) <= length K).
    { apply NoDup_incl_length; [now constructor|]. intros x [<-|Hx]; auto. }
    unfold K, keys in X. rewrite map_length in X. cbn in X. lia.
  - cbn [find_paths]. unfold g at 1. rewrite graph_find by exact Hk. cbn [bind snd].
    assert (NP : NoDup (path ++ [node])).
    { apply (Permutation_NoDup (l := node :: path)); [apply Permutation_cons_append|now constructor]. }
    destruct (outs_one node) as [Q|(v & Q)]; rewrite Q.
    + exists [node], [], (Some (path ++ [node])). repeat split; auto.
      * intros x [<-|[]]; exact Hk.
      * apply path_in_one.
      * cbn [last]. intros v H. apply in_outs in H. rewrite Q in H. destruct H.
    + assert (HR : In (node, v) R) by (apply in_outs; rewrite Q; now left).
      assert (HV : forall x, mem x (node :: visited) = true <-> In x (path ++ [node])).
      { intros x. cbn [mem existsb]. fold (mem x visited). rewrite orb_true_iff, Hv, in_app_iff, Nat.eqb_eq. cbn. intuition. }
      destruct (mem v (node :: visited)) eqn:M.
      * exists [node], [], None. repeat split; auto.
        -- intros x [<-|[]]; exact Hk.
        -- apply path_in_one.
        -- exists v. cbn [last]. split; [exact HR|]. now apply HV.
      * destruct (IH v (node :: visited) (path ++ [node]) (seen ++ [node])) as (q & q' & res & -> & Qq & N1 & I1 & P1 & S1); auto.
        -- intros X. apply HV in X. congruence.
        -- apply (nodes_K node v HR).
        -- intros x Hx. apply in_app_iff in Hx as [Hx|[<-|[]]]; auto.
        -- rewrite app_length; cbn. lia.
        -- cbn [bind fst snd].
           assert (AS : forall A (a : list A) x b, (a ++ [x]) ++ b = a ++ x :: b) by (intros; rewrite <- app_assoc; reflexivity).
           rewrite !AS in *.
           assert (LQ : last (node :: q) 0 = last q 0) by (rewrite Qq; reflexivity).
           exists (node :: q), q, res.
           split; [destruct res; reflexivity|]. split; [reflexivity|]. split; [exact N1|].
           split; [intros x [<-|Hx]; auto|].
           split; [rewrite Qq; apply path_in_cons; split; [exact HR|now rewrite <- Qq]|].
           rewrite LQ. destruct res as [p|]; auto.
Qed.

Definition good (p : list nat) : Prop :=
  p <> [] /\ NoDup p /\ incl p K /\ path_in R p /\ sink R (last p 0).

Lemma closed_walk_cycle : forall x q z, NoDup (x :: q) -> path_in R (x :: q) ->
  In (last (x :: q) 0, z) R -> In z (x :: q) -> cycle R (x :: q).
Proof.
  intros x q z N P H I. split; [exact N|]. exists x, q. split; [reflexivity|].
  assert (z = x) as ->.
  { destruct I as [->|I]; [reflexivity|]. exfalso.
    apply in_split in I as (a & b & ->).
    assert (E : exists y, consecutive (x :: a ++ z :: b) y z /\ ~ In y (z :: b)).
    { change (x :: a ++ z :: b) with ((x :: a) ++ z :: b) in *.
      destruct (exists_last (l := x :: a)) as (a' & y & E); [discriminate|]. exists y. rewrite E in *. split.
      - exists a', b. now rewrite <- app_assoc.
      - rewrite <- app_assoc in N. cbn in N. apply NoDup_remove_2 in N. intros X. apply N, in_or_app; now right. }
    destruct E as (y & Cy & Ny).
    assert (y = last (x :: a ++ z :: b) 0) by (apply (proj2 LR y _ z); [now apply P|exact H]).
    subst y. apply Ny. change (x :: a ++ z :: b) with ((x :: a) ++ z :: b).
    clear. induction (x :: a) as [|y l IH]; [apply last_in|].
    cbn [app]. destruct (l ++ z :: b) as [|w m] eqn:Q; [destruct l; discriminate|]. exact IH. }
  destruct (exists_last (l := x :: q)) as (a & y & E); [discriminate|].
  rewrite E in *. rewrite last_last in H. rewrite <- app_assoc. cbn [app].
  apply path_in_app. split; [exact P|]. apply path_in_cons. split; [exact H|apply path_in_one].
Qed.

(** what is known after some of the keys *)
Record found (done seen : list nat) (lst : list (list nat)) : Prop := {
  fo_good : Forall good lst;
  fo_order : forall i j p q, i < j -> get lst i = Some p -> get lst j = Some q -> ~ In (hd 0 q) p;
  fo_seen : forall x, In x seen -> (exists p, In p lst /\ In x p) \/ (exists c, cycle R c /\ In x c);
  fo_done : incl done seen;
  fo_in : forall p, In p lst -> incl p seen }.

Lemma get_paths_found : exists seen lst, get_paths g = Some (maximal lst) /\ found K seen lst.
Proof.
  unfold get_paths.
  match goal with |- context [foldM ?b ?l ?s] => destruct (foldM_ind b (fun done st =>
    found (map fst done) (fst st) (snd st)) l s) as ((seen & lst) & E & F) end.
  - split; cbn; [constructor| | |intros x []|intros p []].
    + intros i j p q _ H. destruct i; discriminate.
    + intros x [].
  - intros done (k & io) rest (seen & lst) El F. cbn [fst snd] in *. rewrite map_app. cbn [map fst].
    assert (Kk : In k K).
    { unfold K, keys. fold g in El. rewrite El, map_app. apply in_or_app; right; now left. }
    destruct (mem k seen) eqn:M.
    + eexists; split; [reflexivity|]. cbn [fst snd]. destruct F as [F1 F2 F3 F4 F5]. split; auto.
      apply mem_In in M. intros x Hx. apply in_app_iff in Hx as [Hx|[<-|[]]]; auto.
    + apply mem_not_In in M.
      destruct (find_ok (length g) k [] [] seen) as (q & q' & res & -> & Qq & N & I & P & S); auto.
      { constructor. } { intros x. cbn. split; [discriminate|intros []]. } { intros x []. } { cbn. lia. }
      cbn [bind fst snd app] in *. destruct F as [F1 F2 F3 F4 F5]. eexists; split; [reflexivity|]. cbn [fst snd].
      assert (D : incl (map fst done ++ [k]) (seen ++ q)).
      { intros x Hx. apply in_or_app. apply in_app_iff in Hx as [Hx|[<-|[]]]; [left; auto|right; rewrite Qq; now left]. }
      destruct res as [p|].
      * destruct S as (-> & S). split; auto.
        -- apply Forall_app; split; [exact F1|]. constructor; [|constructor]. repeat split; auto. rewrite Qq; discriminate.
        -- intros i j p1 p2 L G1 G2.
           assert (Li : i < length lst).
           { apply get_Some_lt in G2. rewrite app_length in G2. cbn in G2. lia. }
           rewrite get_app1 in G1 by exact Li.
           destruct (Nat.lt_ge_cases j (length lst)) as [Lj|Lj].
           ++ rewrite get_app1 in G2 by exact Lj. apply (F2 i j); auto.
           ++ rewrite get_app2 in G2 by exact Lj. pose proof (get_Some_lt _ _ _ G2) as X. cbn in X.
              replace (j - length lst) with 0 in G2 by lia. injection G2 as <-.
              rewrite Qq. cbn [hd]. intros X'. apply M, (F5 p1); [now apply nth_error_In in G1|exact X'].
        -- intros x Hx. apply in_app_iff in Hx as [Hx|Hx].
           ++ destruct (F3 x Hx) as [(p & Hp & Hxp)|Hc]; [left|now right]. exists p. split; [apply in_or_app; now left|exact Hxp].
           ++ left. exists q. split; [apply in_or_app; right; now left|exact Hx].
        -- intros p Hp x Hx. apply in_or_app. apply in_app_iff in Hp as [Hp|[<-|[]]]; [left; now apply (F5 p)|now right].
      * destruct S as (z & Hz & Iz). split; auto.
        -- intros x Hx. apply in_app_iff in Hx as [Hx|Hx]; [auto|]. right. exists q. split; [|exact Hx].
           rewrite Qq in *. apply (closed_walk_cycle k q' z); auto.
        -- intros p Hp x Hx. apply in_or_app; left. now apply (F5 p).
  - exists seen, lst. rewrite E. cbn [bind]. split; [reflexivity|exact F].
Qed.

(** ** Two paths that meet *)
Lemma forward_same : forall s t x, path_in R (x :: s) -> path_in R (x :: t) ->
  sink R (last (x :: s) 0) -> sink R (last (x :: t) 0) -> s = t.
Proof.
  induction s as [|y s IH]; intros [|z t] x P1 P2 S1 S2; [reflexivity| | |].
  - exfalso. apply path_in_cons in P2. exact (S1 z (proj1 P2)).
  - exfalso. apply path_in_cons in P1. exact (S2 y (proj1 P1)).
  - apply path_in_cons in P1 as (A1 & B1). apply path_in_cons in P2 as (A2 & B2).
    assert (y = z) by (apply (proj1 LR x); auto). subst z. f_equal. apply (IH t y); auto.
Qed.
Lemma backward_same : forall p q x, path_in R (p ++ [x]) -> path_in R (q ++ [x]) ->
  (exists a, q = a ++ p) \/ (exists a, p = a ++ q).
Proof.
  intros p; induction p as [|y p IH] using rev_ind; intros q x P1 P2.
  - left. exists q. now rewrite app_nil_r.
  - destruct q as [|z q _] using rev_ind.
    + right. exists (p ++ [y]). now rewrite app_nil_r.
    + rewrite <- app_assoc in P1, P2. cbn in P1, P2. apply path_in_app in P1 as (A1 & B1). apply path_in_app in P2 as (A2 & B2).
      apply path_in_cons in B1 as (B1 & _). apply path_in_cons in B2 as (B2 & _).
      assert (y = z) by (apply (proj2 LR y z x); auto). subst z.
      destruct (IH q y A1 A2) as [(a & ->)|(a & ->)]; [left|right]; exists a; now rewrite app_assoc.
Qed.
Lemma meet : forall p q x, good p -> good q -> In x p -> In x q ->
  (exists a, q = a ++ p) \/ (exists a, p = a ++ q).
Proof.
  intros p q x (_ & _ & _ & P1 & S1) (_ & _ & _ & P2 & S2) I1 I2.
  apply in_split in I1 as (a & s & ->). apply in_split in I2 as (b & t & ->).
  assert (L : forall u (v : list nat), last (u ++ x :: v) 0 = last (x :: v) 0).
  { clear. intros u v; induction u as [|y u IH]; [reflexivity|]. cbn [app].
    destruct (u ++ x :: v) as [|w m] eqn:Q; [destruct u; discriminate|]. exact IH. }
  rewrite L in S1, S2. apply path_in_app in P1 as (P1 & P1'). apply path_in_app in P2 as (P2 & P2').
  assert (s = t) by (apply (forward_same s t x); auto). subst t.
  destruct (backward_same a b x P1 P2) as [(c & ->)|(c & ->)]; [left|right]; exists c; now rewrite app_assoc.
Qed.

(** ** The maximal ones *)
Section Maximal.
Variables (seen : list nat) (lst : list (list nat)).
Hypothesis F : found K seen lst.

Definition contained (p q : list nat) : bool := forallb (fun u => mem u q) p.
Lemma contained_incl : forall p q, contained p q = true <-> incl p q.
Proof.
  intros p q. unfold contained. rewrite forallb_forall. split; intros H x Hx; [apply mem_In|apply mem_In]; auto.
Qed.
Definition survives (i : nat) (p : list nat) : Prop :=
  forall j q, get lst j = Some q -> j <> i -> ~ incl p q.
Lemma in_survivors : forall i p,
  In (i, p) (filter (fun ip => negb (existsb (fun jq => negb (fst ip =? fst jq) && forallb (fun u => mem u (snd jq)) (snd ip))
            (enumerate lst))) (enumerate lst)) <-> get lst i = Some p /\ survives i p.
Proof.
  intros i p. rewrite filter_In, in_enumerate, negb_true_iff. cbn [fst snd]. split; intros (G & H); (split; [exact G|]).
  - intros j q Gj N I. apply in_enumerate in Gj.
    rewrite <- not_true_iff_false in H. apply H. apply existsb_exists. exists (j, q). split; [exact Gj|]. cbn [fst snd].
    rewrite andb_true_iff, negb_true_iff, Nat.eqb_neq. split; [congruence|now apply contained_incl].
  - apply not_true_iff_false. intros X. apply existsb_exists in X as ((j & q) & Ij & X). cbn [fst snd] in X.
    apply andb_true_iff in X as (X1 & X2). apply negb_true_iff, Nat.eqb_neq in X1.
    apply (H j q); [now apply in_enumerate|congruence|now apply contained_incl].
Qed.
Lemma in_maximal : forall p, In p (maximal lst) <-> exists i, get lst i = Some p /\ survives i p.
Proof.
  intros p. unfold maximal. rewrite in_map_iff. split.
  - intros ((i & p') & <- & H). apply in_survivors in H. exists i. exact H.
  - intros (i & H). exists (i, p). split; [reflexivity|]. now apply in_survivors.
Qed.
Lemma maximal_good : forall p, In p (maximal lst) -> good p.
Proof.
  intros p H. apply in_maximal in H as (i & G & _). apply nth_error_In in G.
  exact (proj1 (Forall_forall _ _) (fo_good _ _ _ F) p G).
Qed.
Lemma good_get : forall i p, get lst i = Some p -> good p.
Proof. intros i p G. apply nth_error_In in G. exact (proj1 (Forall_forall _ _) (fo_good _ _ _ F) p G). Qed.
Lemma head_in : forall p, p <> [] -> In (hd 0 p) p.
Proof. intros [|x p] H; [contradiction|now left]. Qed.

Lemma meet_ordered : forall i j p q x, i < j -> get lst i = Some p -> get lst j = Some q -> In x p -> In x q ->
  exists a, q = a ++ p.
Proof.
  intros i j p q x L G1 G2 I1 I2. pose proof (good_get i p G1) as P. pose proof (good_get j q G2) as Q.
  destruct (meet p q x P Q I1 I2) as [X|(a & ->)]; [exact X|]. exfalso.
  apply (fo_order _ _ _ F i j _ _ L G1 G2). apply in_or_app; right. apply head_in, Q.
Qed.
Lemma cover : forall d i p, length lst - i <= d -> get lst i = Some p -> exists m a, In m (maximal lst) /\ m = a ++ p.
Proof.
  induction d as [|d IH]; intros i p L G.
  - apply get_Some_lt in G. lia.
  - assert (D : survives i p \/ exists j q, get lst j = Some q /\ j <> i /\ incl p q).
    { destruct (existsb (fun jq => negb (i =? fst jq) && contained p (snd jq)) (enumerate lst)) eqn:X.
      - right. apply existsb_exists in X as ((j & q) & Ij & X). cbn [fst snd] in X. apply andb_true_iff in X as (X1 & X2).
        apply negb_true_iff, Nat.eqb_neq in X1. exists j, q. repeat split; [now apply in_enumerate|congruence|now apply contained_incl].
      - left. intros j q Gj N I. rewrite <- not_true_iff_false in X. apply X. apply existsb_exists. exists (j, q).
        split; [now apply in_enumerate|]. cbn [fst snd]. rewrite andb_true_iff, negb_true_iff, Nat.eqb_neq.
        split; [congruence|now apply contained_incl]. }
    destruct D as [S|(j & q & Gj & N & I)].
    + exists p, []. split; [apply in_maximal; eauto|reflexivity].
    + pose proof (head_in p (proj1 (good_get i p G))) as Hp. pose proof (I _ Hp) as Hq.
      destruct (Nat.lt_ge_cases j i) as [Lj|Lj].
      * exfalso. apply (fo_order _ _ _ F j i q p Lj Gj G Hq).
      * destruct (meet_ordered i j p q (hd 0 p)) as (a & ->); auto; [lia|].
        destruct (IH j (a ++ p)) as (m & b & Hm & ->); [lia|exact Gj|].
        exists (b ++ a ++ p), (b ++ a). split; [exact Hm|now rewrite app_assoc].
Qed.
Lemma maximal_disjoint : NoDup (concat (maximal lst)).
Proof.
  unfold maximal.
  assert (G : forall l : list (nat * list nat), NoDup (map fst l) ->
    (forall i p, In (i, p) l -> get lst i = Some p /\ survives i p) -> NoDup (concat (map snd l))).
  { induction l as [|(i & p) l IH]; intros N H; [constructor|]. cbn [map snd concat].
    inversion N as [|? ? N1 N2]; subst. destruct (H i p (or_introl eq_refl)) as (Gi & Si).
    assert (A : NoDup p) by apply (good_get i p Gi).
    assert (B : NoDup (concat (map snd l))) by (apply IH; [exact N2|intros; apply H; now right]).
    assert (D : forall x, In x p -> ~ In x (concat (map snd l))).
    { intros x Hx Hc. apply in_concat in Hc as (q & Hq & Hxq). apply in_map_iff in Hq as ((j & q') & Q & Hj). cbn in Q; subst q'.
      destruct (H j q (or_intror Hj)) as (Gj & Sj).
      assert (Nij : i <> j) by (intros ->; apply N1; now apply (in_map fst) in Hj).
      destruct (Nat.lt_ge_cases i j) as [L|L].
      - destruct (meet_ordered i j p q x) as (a & ->); auto. apply (Si j (a ++ p)); auto. apply incl_appr, incl_refl.
      - destruct (meet_ordered j i q p x) as (a & ->); auto; [lia|]. apply (Sj i (a ++ q)); auto. apply incl_appr, incl_refl. }
    revert A B D. clear. intros A B D. induction p as [|y p IH]; [exact B|]. inversion A; subst. cbn. constructor.
    - intros X. apply in_app_iff in X as [X|X]; [contradiction|]. apply (D y); [now left|exact X].
    - apply IH; [assumption|]. intros x Hx. apply D; now right. }
  apply G.
  - assert (FM : forall (f : nat * list nat -> bool) l, NoDup (map fst l) -> NoDup (map fst (filter f l))).
    { clear. intros f l; induction l as [|x l IH]; intros N; [constructor|]. inversion N as [|? ? N1 N2]; subst. cbn.
      destruct (f x); [|auto]. cbn. constructor; [|auto]. intros X. apply N1. apply in_map_iff in X as (y & Q & Hy).
      apply in_map_iff. exists y. split; [exact Q|]. now apply filter_In in Hy. }
    apply FM, enumerate_nodup.
  - intros i p H. now apply in_survivors.
Qed.
End Maximal.

(** Summary: the paths are disjoint, they are paths of [R] that cannot be continued, and every edge of
    [R] is a step of one of them or lies on a cycle of [R]. *)
Lemma get_paths_ok : exists ps, get_paths g = Some ps /\ Forall good ps /\ NoDup (concat ps) /\
  (forall u v, In (u, v) R -> (exists p, In p ps /\ consecutive p u v) \/ (exists c, cycle R c /\ In u c)) /\
  (forall u v, In (u, v) R -> sink R v -> ps <> []).
Proof.
  destruct get_paths_found as (seen & lst & E & F). exists (maximal lst). split; [exact E|].
  split; [apply Forall_forall; intros p; now apply (maximal_good seen)|].
  split; [now apply (maximal_disjoint seen)|].
  assert (ON : forall x p, In p lst -> In x p -> exists m a, In m (maximal lst) /\ m = a ++ p).
  { intros x p Hp _. apply In_nth_error in Hp as (i & G). apply (cover seen lst F (length lst) i); [lia|exact G]. }
  split.
  - intros u v H. destruct (fo_seen _ _ _ F u) as [(p & Hp & Hu)|C]; [|left|now right].
    { apply (fo_done _ _ _ F). apply (nodes_K u v H). }
    destruct (ON u p Hp Hu) as (m & a & Hm & ->). exists (a ++ p). split; [exact Hm|].
    pose proof (proj1 (Forall_forall _ _) (fo_good _ _ _ F) p Hp) as (_ & _ & _ & P & S).
    apply in_split in Hu as (b & [|w c] & ->).
    + rewrite last_last in S. destruct (S v H).
    + assert (w = v) by (apply (proj1 LR u); [apply P; exists b, c; reflexivity|exact H]). subst w.
      exists (a ++ b), c. now rewrite <- app_assoc.
  - intros u v H S Q. destruct (fo_seen _ _ _ F v) as [(p & Hp & Hv)|(c & (_ & x & c' & -> & P) & Hc)].
    { apply (fo_done _ _ _ F). apply (nodes_K u v H). }
    + destruct (ON v p Hp Hv) as (m & a & Hm & _). rewrite Q in Hm. destruct Hm.
    + apply in_split in Hc as (a & b & Hc). rewrite Hc in P. destruct b as [|w b].
      * apply (S x), P. exists a, []. now rewrite <- app_assoc.
      * apply (S w), P. exists a, (b ++ [x]). now rewrite <- app_assoc.
Qed.
End Walks.
