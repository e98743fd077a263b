(** * Min-sum message passing on factor graphs without cycles (no code is modelled here).

    Constraints [ok c] over the binary variables [cx c].  A list of constraints is a forest when
    they can be added one after the other so that each new one shares at most one variable with
    those already there.  On a forest the sum of the messages a variable receives is, after enough
    rounds, the min-sum message of all constraints taken as a single one. *)
From Verif Require Import Num NumFacts Arr ArrFacts Spec SpecForest P_Ksat P_Tsp_Sched P_Tsp_Order M_Tsp_Run P_Ksat_Py.
Local Open Scope nat_scope.

Section Forest.
Variable U : list nat.
Hypothesis HU : NoDup U.
Variable cx : nat -> list nat.
Variable ok : nat -> (nat -> bool) -> Prop.
Hypothesis ok_ext : forall c a b, (forall u, In u (cx c) -> a u = b u) -> ok c a -> ok c b.
Hypothesis cx_U : forall c u, In u (cx c) -> In u U.

(** cost of the variables selected by [f] *)
Definition fsum (f : nat -> bool) (mu : nat -> Qc) (a : nat -> bool) : Qc :=
  qsum (map (fun u => if f u && a u then mu u else 0%Qc) U).

Lemma fsum_ext f g mu nu a b :
  (forall u, In u U -> (if f u && a u then mu u else 0%Qc) = (if g u && b u then nu u else 0%Qc)) ->
  fsum f mu a = fsum g nu b.
Proof. intros H. unfold fsum. f_equal. apply map_ext_in. exact H. Qed.
Lemma fsum_split f g mu a :
  fsum f mu a = (fsum (fun u => f u && g u) mu a + fsum (fun u => f u && negb (g u)) mu a)%Qc.
Proof.
  unfold fsum. rewrite <- qsum_plus. f_equal. apply map_ext. intros u.
  destruct (f u), (g u), (a u); cbn; qlra.
Qed.
Lemma fsum_point f mu a v : In v U -> f v = true ->
  fsum f mu a = ((if a v then mu v else 0) + fsum (fun u => f u && negb (u =? v)) mu a)%Qc.
Proof.
  intros I E. unfold fsum. rewrite (qsum_others _ v U HU I), E. cbn [andb]. f_equal. clear I HU cx_U.
  unfold others. induction U as [|x l IH]; [reflexivity|]. cbn [filter map].
  assert (IH' : qsum (map (fun u : nat => if f u && a u then mu u else 0%Qc)
      (filter (fun b => negb (b =? v)) l)) = qsum (map (fun u : nat => if f u && negb (u =? v) && a u then mu u else 0%Qc) l)).
  { clear. induction l as [|x l IH]; [reflexivity|]. cbn [filter map]. destruct (x =? v); cbn [negb map].
    - rewrite IH, andb_false_r. cbn [andb]. unfold qsum. cbn. qlra.
    - rewrite andb_true_r. unfold qsum in *. cbn. rewrite IH. reflexivity. }
  destruct (x =? v); cbn [negb map].
  - rewrite IH', andb_false_r. cbn [andb]. unfold qsum. cbn. qlra.
  - rewrite andb_true_r. unfold qsum in *. cbn. rewrite IH'. reflexivity.
Qed.
Lemma fsum_low f mu a : (fsum f mu (fun u => qltb (mu u) 0) <= fsum f mu a)%Qc.
Proof.
  unfold fsum. clear HU cx_U. induction U as [|x l IH]; [apply Qcle_refl|]. unfold qsum in *. cbn.
  destruct (f x); cbn [andb]; [|qlra].
  destruct (qltb_spec (mu x) 0); destruct (a x); qlra.
Qed.

(** cheapest way to satisfy [P] with [w] set to [b] *)
Definition bst (P : (nat -> bool) -> Prop) (f : nat -> bool) (mu : nat -> Qc) (w : nat) (b : bool) (q : Qc) : Prop :=
  (exists a, P a /\ a w = b /\ q = fsum f mu a) /\ (forall a, P a -> a w = b -> (q <= fsum f mu a)%Qc).
Definition msg (P : (nat -> bool) -> Prop) (f : nat -> bool) (mu : nat -> Qc) (w : nat) (d : Qc) : Prop :=
  exists q1 q0, bst P f mu w true q1 /\ bst P f mu w false q0 /\ d = (q1 - q0)%Qc.

Lemma bst_unique P f mu w b q r : bst P f mu w b q -> bst P f mu w b r -> q = r.
Proof.
  intros ((a & A1 & A2 & A3) & A4) ((c & C1 & C2 & C3) & C4).
  specialize (A4 c C1 C2). specialize (C4 a A1 A2). qlra.
Qed.
Lemma msg_unique P f mu w d e : msg P f mu w d -> msg P f mu w e -> d = e.
Proof.
  intros (q1 & q0 & A & B & ->) (r1 & r0 & C & D & ->).
  rewrite (bst_unique _ _ _ _ _ _ _ A C), (bst_unique _ _ _ _ _ _ _ B D). reflexivity.
Qed.
Lemma bst_ext P f mu nu w b q : (forall u, In u U -> f u = true -> mu u = nu u) ->
  bst P f mu w b q -> bst P f nu w b q.
Proof.
  intros H ((a & A1 & A2 & A3) & A4).
  assert (E : forall a, fsum f mu a = fsum f nu a).
  { intros c. apply fsum_ext. intros u Hu. destruct (f u) eqn:Ef; [|reflexivity]. rewrite (H u Hu Ef). reflexivity. }
  split; [exists a; rewrite <- E; auto|]. intros c C1 C2. rewrite <- E. auto.
Qed.
Lemma msg_ext P f mu nu w d : (forall u, In u U -> f u = true -> mu u = nu u) ->
  msg P f mu w d -> msg P f nu w d.
Proof.
  intros H (q1 & q0 & A & B & E). exists q1, q0.
  split; [eapply bst_ext; eauto|split; [eapply bst_ext; eauto|auto]].
Qed.

(** all constraints of a list *)
Definition sat (idx : list nat) (a : nat -> bool) : Prop := forall c, In c idx -> ok c a.
Definition notw (w u : nat) : bool := negb (u =? w).
Definition inb (c w u : nat) : bool := mem u (cx c) && negb (u =? w).
(** message of constraint [c] to its variable [v] *)
Definition lmsg (c : nat) (nu : nat -> Qc) (v : nat) (d : Qc) : Prop := msg (ok c) (inb c v) nu v d.
(** message of all constraints *)
Definition gmsg (idx : list nat) (mu : nat -> Qc) (w : nat) (d : Qc) : Prop := msg (sat idx) (notw w) mu w d.

Lemma gmsg_nil mu w : gmsg [] mu w 0%Qc.
Proof.
  set (q := fsum (notw w) mu (fun u => qltb (mu u) 0)).
  assert (H : forall b, bst (sat []) (notw w) mu w b q).
  { intros b. split.
    - exists (fun u => if u =? w then b else qltb (mu u) 0). split; [intros c []|]. rewrite Nat.eqb_refl.
      split; [reflexivity|]. apply fsum_ext. intros u _. unfold notw. destruct (u =? w); reflexivity.
    - intros a _ _. apply fsum_low. }
  exists q, q. split; [apply H|split; [apply H|]]. qlra.
Qed.

(** ** Adding one constraint *)
Section Add.
Variables (i v : nat) (idx : list nat).
Hypothesis Hv : In v (cx i).
Hypothesis Hpriv : forall u c, In u (cx i) -> u <> v -> In c idx -> ~ In u (cx c).

Definition priv (u : nat) : bool := inb i v u.
Definition splice (a b : nat -> bool) (u : nat) : bool := if priv u then b u else a u.
Definition floor_of (mu : nat -> Qc) : Qc := fsum priv mu (fun u => qltb (mu u) 0).

Lemma priv_v : priv v = false.
Proof. unfold priv, inb. rewrite Nat.eqb_refl, andb_false_r. reflexivity. Qed.
Lemma priv_true u : priv u = true <-> In u (cx i) /\ u <> v.
Proof. unfold priv, inb. rewrite andb_true_iff, mem_In, negb_true_iff, Nat.eqb_neq. tauto. Qed.
Lemma sat_splice a b : sat idx a -> sat idx (splice a b).
Proof.
  intros H c Hc. apply ok_ext with (a := a); [|apply H; auto]. intros u Hu. unfold splice.
  destruct (priv u) eqn:E; [|reflexivity]. apply priv_true in E. exfalso. apply (Hpriv u c); tauto.
Qed.
Lemma ok_splice a b : b v = a v -> ok i b -> ok i (splice a b).
Proof.
  intros E H. apply ok_ext with (a := b); [|exact H]. intros u Hu. unfold splice.
  destruct (priv u) eqn:P; [reflexivity|]. destruct (Nat.eq_dec u v) as [->|N]; [auto|].
  exfalso. rewrite (proj2 (priv_true u)) in P; [discriminate|auto].
Qed.
Lemma sat_cons a : sat (i :: idx) a <-> ok i a /\ sat idx a.
Proof.
  split.
  - intros H. split; [apply H; left; auto|]. intros c Hc. apply H. right; auto.
  - intros [H1 H2] c [<-|Hc]; auto.
Qed.
(** the part outside the new constraint *)
Definition outside (w u : nat) : bool := notw w u && negb (priv u).
Lemma notw_split w mu a : priv w = false ->
  fsum (notw w) mu a = (fsum priv mu a + fsum (outside w) mu a)%Qc.
Proof.
  intros Hw. rewrite (fsum_split (notw w) priv). f_equal. apply fsum_ext. intros u _. unfold notw.
  destruct (Nat.eqb_spec u w) as [->|]; [rewrite Hw|]; reflexivity.
Qed.
Lemma outside_splice w mu a b : fsum (outside w) mu (splice a b) = fsum (outside w) mu a.
Proof.
  apply fsum_ext. intros u _. unfold outside, splice. destruct (priv u); [rewrite andb_false_r|]; reflexivity.
Qed.
Lemma priv_splice mu a b : fsum priv mu (splice a b) = fsum priv mu b.
Proof. apply fsum_ext. intros u _. unfold splice. destruct (priv u); reflexivity. Qed.

Definition bump (mu : nat -> Qc) (m : Qc) (u : nat) : Qc := if u =? v then (mu v + m)%Qc else mu u.
Lemma bump_priv mu m a : fsum priv (bump mu m) a = fsum priv mu a.
Proof.
  apply fsum_ext. intros u _. destruct (priv u) eqn:E; [|reflexivity]. unfold bump.
  apply priv_true in E. destruct (Nat.eqb_spec u v); [tauto|reflexivity].
Qed.
Lemma bump_outside w mu m a : w <> v ->
  fsum (outside w) (bump mu m) a = (fsum (outside w) mu a + if a v then m else 0)%Qc.
Proof.
  intros N. assert (O : outside w v = true).
  { unfold outside, notw. rewrite priv_v. destruct (Nat.eqb_spec v w); [congruence|reflexivity]. }
  rewrite !(fsum_point (outside w) _ a v) by (eauto using cx_U).
  assert (E : fsum (fun u => outside w u && negb (u =? v)) (bump mu m) a
            = fsum (fun u => outside w u && negb (u =? v)) mu a).
  { apply fsum_ext. intros u _. unfold bump. destruct (u =? v); [rewrite andb_false_r|]; reflexivity. }
  rewrite E. unfold bump. rewrite Nat.eqb_refl. destruct (a v); qlra.
Qed.


(** what remains when the variables of the new constraint are free *)
Lemma bst_outside mu w b q : priv w = false -> bst (sat idx) (notw w) mu w b q ->
  (exists a, sat idx a /\ a w = b /\ fsum (outside w) mu a = (q - floor_of mu)%Qc) /\
  (forall a, sat idx a -> a w = b -> (q - floor_of mu <= fsum (outside w) mu a)%Qc).
Proof.
  intros Pw ((a & A1 & A2 & A3) & A4).
  assert (Lo : forall c, sat idx c -> c w = b -> (q - floor_of mu <= fsum (outside w) mu c)%Qc).
  { intros c C1 C2. assert (X : (q <= fsum (notw w) mu (splice c (fun u => qltb (mu u) 0)))%Qc).
    { apply A4; [apply sat_splice; auto|]. unfold splice. rewrite Pw. auto. }
    rewrite notw_split, priv_splice, outside_splice in X by auto. fold (floor_of mu) in X. qlra. }
  split; [|exact Lo]. exists a. split; [auto|split; [auto|]].
  pose proof (Lo a A1 A2) as X. rewrite notw_split in A3 by auto.
  pose proof (fsum_low priv mu a) as Y. fold (floor_of mu) in Y. qlra.
Qed.

Variables (mu : nat -> Qc).

Lemma add_far w b q (l : bool -> Qc) : priv w = false -> w <> v ->
  (forall x, bst (ok i) priv mu v x (l x)) ->
  bst (sat idx) (notw w) (bump mu (l true - l false)%Qc) w b q ->
  bst (sat (i :: idx)) (notw w) mu w b (q - floor_of mu + l false)%Qc.
Proof.
  intros Pw N L B. apply bst_outside in B as ((a & A1 & A2 & A3) & A4); auto.
  assert (Fl : floor_of (bump mu (l true - l false)%Qc) = floor_of mu).
  { unfold floor_of. rewrite bump_priv. apply fsum_ext. intros u _. destruct (priv u) eqn:E; [|reflexivity].
    apply priv_true in E. unfold bump. destruct (Nat.eqb_spec u v); [tauto|reflexivity]. }
  rewrite Fl in *. split.
  - destruct (L (a v)) as ((c & C1 & C2 & C3) & _). exists (splice a c). split; [|split].
    + apply sat_cons. split; [apply ok_splice; auto|apply sat_splice; auto].
    + unfold splice. rewrite Pw. auto.
    + rewrite notw_split, priv_splice, outside_splice, <- C3 by auto. rewrite bump_outside in A3 by auto.
      destruct (a v); qlra.
  - intros c C1 C2. apply sat_cons in C1 as (C0 & C1). specialize (A4 c C1 C2). rewrite bump_outside in A4 by auto.
    rewrite notw_split by auto. destruct (L (c v)) as (_ & L1). specialize (L1 c C0 eq_refl). destruct (c v); qlra.
Qed.
Lemma add_at b q l : bst (ok i) priv mu v b l -> bst (sat idx) (notw v) mu v b q ->
  bst (sat (i :: idx)) (notw v) mu v b (q - floor_of mu + l)%Qc.
Proof.
  intros L B. apply bst_outside in B as ((a & A1 & A2 & A3) & A4); auto using priv_v.
  destruct L as ((c & C1 & C2 & C3) & L). split.
  - exists (splice a c). split; [|split].
    + apply sat_cons. split; [apply ok_splice; congruence|apply sat_splice; auto].
    + unfold splice. rewrite priv_v. auto.
    + rewrite notw_split, priv_splice, outside_splice, <- C3 by auto using priv_v. qlra.
  - intros d D1 D2. apply sat_cons in D1 as (D0 & D1). specialize (A4 d D1 D2).
    rewrite notw_split by auto using priv_v. specialize (L d D0 D2). qlra.
Qed.
Lemma add_new p b l nu (q : bool -> Qc) : priv p = true ->
  (forall x, bst (sat idx) (notw v) mu v x (q x)) ->
  bst (ok i) (inb i p) nu p b l ->
  nu v = (mu v + (q true - q false))%Qc -> (forall u, In u (cx i) -> u <> v -> u <> p -> nu u = mu u) ->
  bst (sat (i :: idx)) (notw p) mu p b (l + q false - floor_of mu)%Qc.
Proof.
  intros Pp B L Nv Nu. assert (Np : p <> v) by (apply priv_true in Pp; tauto).
  (* cost of everything but [p]: the constraint's other variables, then the rest *)
  assert (E : forall a, fsum (notw p) mu a =
     (fsum (inb i p) nu a - (if a v then q true - q false else 0) + fsum (outside v) mu a)%Qc).
  { intros a. assert (I : inb i p v = true).
    { unfold inb. rewrite (proj2 (mem_In v (cx i))) by auto. destruct (Nat.eqb_spec v p); [congruence|reflexivity]. }
    rewrite (fsum_point (inb i p) nu a v) by eauto using cx_U. rewrite Nv.
    rewrite (fsum_point (notw p) mu a v). 2: eauto using cx_U.
    2:{ unfold notw. destruct (Nat.eqb_spec v p); [congruence|reflexivity]. }
    rewrite (fsum_split (fun u => notw p u && negb (u =? v)) priv).
    assert (E1 : fsum (fun u => notw p u && negb (u =? v) && priv u) mu a
               = fsum (fun u => inb i p u && negb (u =? v)) nu a).
    { apply fsum_ext. intros u _. unfold notw, priv, inb. destruct (mem u (cx i)) eqn:M; cbn [andb].
      - destruct (Nat.eqb_spec u p), (Nat.eqb_spec u v); cbn; try reflexivity.
        apply mem_In in M. rewrite Nu by auto. reflexivity.
      - rewrite andb_false_r. reflexivity. }
    assert (E2 : fsum (fun u => notw p u && negb (u =? v) && negb (priv u)) mu a = fsum (outside v) mu a).
    { apply fsum_ext. intros u _. unfold outside, notw. destruct (Nat.eqb_spec u p) as [->|].
      - rewrite Pp. cbn. rewrite andb_false_r. reflexivity.
      - reflexivity. }
    rewrite E1, E2. destruct (a v); qlra. }
  destruct L as ((c & C1 & C2 & C3) & L).
  assert (O : forall x, (exists a, sat idx a /\ a v = x /\ fsum (outside v) mu a = (q x - floor_of mu)%Qc) /\
    (forall a, sat idx a -> a v = x -> (q x - floor_of mu <= fsum (outside v) mu a)%Qc)).
  { intros x. apply bst_outside; auto using priv_v. }
  split.
  - destruct (O (c v)) as ((a & A1 & A2 & A3) & _). exists (splice a c). split; [|split].
    + apply sat_cons. split; [apply ok_splice; auto|apply sat_splice; auto].
    + unfold splice. rewrite Pp. auto.
    + rewrite E, outside_splice, A3.
      assert (X : fsum (inb i p) nu (splice a c) = fsum (inb i p) nu c).
      { apply fsum_ext. intros u _. unfold splice. destruct (priv u) eqn:Pu; [reflexivity|].
        destruct (inb i p u) eqn:Iu; [|reflexivity]. cbn. unfold inb in Iu. apply andb_true_iff in Iu as (Iu & _).
        apply mem_In in Iu. assert (u = v) as ->.
        { destruct (Nat.eq_dec u v); auto. rewrite (proj2 (priv_true u)) in Pu; [discriminate|auto]. }
        rewrite A2. reflexivity. }
      rewrite X, <- C3. unfold splice. rewrite priv_v, A2. destruct (c v); qlra.
  - intros d D1 D2. apply sat_cons in D1 as (D0 & D1). rewrite E. specialize (L d D0 D2).
    destruct (O (d v)) as (_ & O2). specialize (O2 d D1 eq_refl). destruct (d v); qlra.
Qed.
End Add.

(** ** The schedule *)

(** [V t c v]: variable to constraint, [D t c v]: constraint to variable, [M t v]: costs, which
    may change over time *)
Record sched (idx : list nat) (V D : nat -> nat -> nat -> Qc) (M : nat -> nat -> Qc) : Prop := {
  s_out : forall t c v, In c idx -> In v (cx c) -> lmsg c (V t c) v (D t c v);
  s_off : forall t c v, In c idx -> ~ In v (cx c) -> D t c v = 0%Qc;
  s_in : forall t c v, In c idx -> In v (cx c) ->
           V (t + 1) c v = (M t v + qsum (map (fun c' => D t c' v) (others c idx)))%Qc }.

(** variables of a single constraint start with their own cost, except [w] *)
Definition leaves (idx : list nat) (V0 : nat -> nat -> Qc) (mu : nat -> Qc) (w : nat) : Prop :=
  forall c u, In c idx -> In u (cx c) -> u <> w ->
    (forall c', In c' idx -> In u (cx c') -> c' = c) -> V0 c u = mu u.

Lemma others_cons_ne c i idx : c <> i -> others c (i :: idx) = i :: others c idx.
Proof. intros H. unfold others. cbn [filter]. destruct (Nat.eqb_spec i c); [congruence|reflexivity]. Qed.
Lemma others_cons_eq i idx : ~ In i idx -> others i (i :: idx) = idx.
Proof. intros H. unfold others at 1. cbn [filter]. rewrite Nat.eqb_refl. apply others_notin. auto. Qed.

Lemma sched_drop i idx V D M : ~ In i idx -> sched (i :: idx) V D M ->
  sched idx V D (fun t u => (M t u + D t i u)%Qc).
Proof.
  intros N [A B C]. split.
  - intros t c v Hc Hv. apply A; [right|]; auto.
  - intros t c v Hc Hv. apply B; [right|]; auto.
  - intros t c v Hc Hv. rewrite C by (auto; right; auto). rewrite others_cons_ne by (intros ->; auto).
    unfold qsum. cbn [map fold_right]. qlra.
Qed.
Lemma sched_shift idx V D M : sched idx V D M ->
  sched idx (fun t => V (t + 1)) (fun t => D (t + 1)) (fun t => M (t + 1)).
Proof.
  intros [A B C]. split.
  - intros t c v. apply A.
  - intros t c v. apply B.
  - intros t c v. apply C.
Qed.

Theorem forest_exact idx : forest cx idx -> NoDup idx ->
  forall V D M mu w, sched idx V D M ->
    (forall t u c, u <> w -> In c idx -> In u (cx c) -> M t u = mu u) ->
    leaves idx (V 0) mu w ->
    forall t, length idx <= t + 1 -> gmsg idx mu w (qsum (map (fun c => D t c w) idx)).
Proof.
  induction 1 as [|i v idx Hv Hp F IH]; intros ND V D M mu w HS HM HL t Ht.
  - cbn. apply gmsg_nil.
  - apply NoDup_cons_iff in ND as (Ni & ND). specialize (IH ND).
    pose proof (sched_drop _ _ _ _ _ Ni HS) as HS'.
    assert (Off : forall t u, In u (cx i) -> u <> v -> qsum (map (fun c => D t c u) idx) = 0%Qc).
    { intros t' u Hu Nu. apply qsum_none. intros c Hc. apply (s_off _ _ _ _ HS); [right; auto|]. eapply Hp; eauto. }
    assert (Vi : forall t u, In u (cx i) -> u <> v -> u <> w -> V t i u = mu u).
    { intros [|s] u Hu Nu Nw.
      - apply (HL i u); [left; auto|auto|auto|]. intros c' [<-|Hc'] Hu'; [reflexivity|]. exfalso. eapply Hp; eauto.
      - rewrite <- Nat.add_1_r. rewrite (s_in _ _ _ _ HS) by (auto; left; auto).
        rewrite others_cons_eq by auto. rewrite Off by auto. rewrite (HM s u i) by (auto; left; auto). qlra. }
    destruct (in_dec Nat.eq_dec w (cx i)) as [Wi|Wi]; [destruct (Nat.eq_dec w v) as [->|Wv]|].
    + (* towards the shared variable *)
      assert (G : gmsg idx mu v (qsum (map (fun c => D t c v) idx))).
      { apply (IH V D (fun t u => (M t u + D t i u)%Qc)); auto.
        - intros t' u c Nu Hc Hu. rewrite (HM t' u c) by (auto; right; auto).
          rewrite (s_off _ _ _ _ HS); [qlra|left; auto|]. intros X. eapply (Hp u c); eauto.
        - intros c u Hc Hu Nu O. apply HL; auto; [right; auto|]. intros c' [<-|Hc'] Hu'; [|auto].
          exfalso. eapply (Hp u c); eauto.
        - cbn in Ht. lia. }
      destruct G as (q1 & q0 & B1 & B0 & E).
      assert (L : lmsg i mu v (D t i v)).
      { eapply msg_ext; [|apply (s_out _ _ _ _ HS); [left|]; auto]. intros u _ Hu. unfold inb in Hu.
        apply andb_true_iff in Hu as (H1 & H2). apply mem_In in H1. apply negb_true_iff, Nat.eqb_neq in H2. auto. }
      destruct L as (l1 & l0 & L1 & L0 & EL).
      exists (q1 - floor_of i v mu + l1)%Qc, (q0 - floor_of i v mu + l0)%Qc.
      split; [apply add_at; auto|]. split; [apply add_at; auto|].
      unfold qsum in *. cbn [map fold_right]. rewrite E, EL. qlra.
    + (* towards a variable of the new constraint only *)
      assert (G : forall s, length idx <= s + 1 -> gmsg idx mu v (qsum (map (fun c => D s c v) idx))).
      { intros s Hs. apply (IH V D (fun t u => (M t u + D t i u)%Qc)); auto.
        - intros t' u c Nu Hc Hu. rewrite (HM t' u c); [|intros ->; eapply (Hp w c); eauto|right; auto|auto].
          rewrite (s_off _ _ _ _ HS); [qlra|left; auto|]. intros X. eapply (Hp u c); eauto.
        - intros c u Hc Hu Nu O. apply HL; auto; [right; auto|intros ->; eapply (Hp w c); eauto|].
          intros c' [<-|Hc'] Hu'; [|auto]. exfalso. eapply (Hp u c); eauto. }
      assert (X : exists e, gmsg idx mu v e /\ V t i v = (mu v + e)%Qc).
      { destruct t as [|s].
        - destruct idx as [|c0 idx]; [|cbn in Ht; lia]. exists 0%Qc. split; [apply gmsg_nil|].
          rewrite (HL i v); [qlra|left; auto|auto|auto|]. intros c' [<-|[]] _. reflexivity.
        - exists (qsum (map (fun c => D s c v) idx)). split; [apply G; cbn in Ht; lia|].
          rewrite <- Nat.add_1_r. rewrite (s_in _ _ _ _ HS) by (auto; left; auto).
          rewrite others_cons_eq by auto. rewrite (HM s v i); [reflexivity|auto|left; auto|auto]. }
      destruct X as (e & (q1 & q0 & B1 & B0 & E) & EV).
      destruct (s_out _ _ _ _ HS t i w) as (l1 & l0 & L1 & L0 & EL); [left; auto|auto|].
      set (q := fun b : bool => if b then q1 else q0).
      exists (l1 + q false - floor_of i v mu)%Qc, (l0 + q false - floor_of i v mu)%Qc.
      assert (P : priv i v w = true) by (apply priv_true; auto).
      assert (A : forall b l, bst (ok i) (inb i w) (V t i) w b l ->
         bst (sat (i :: idx)) (notw w) mu w b (l + q false - floor_of i v mu)%Qc).
      { intros b l L. eapply add_new; eauto.
        - intros [|]; cbn; auto.
        - cbn. rewrite EV, E. reflexivity. }
      split; [apply A; auto|split; [apply A; auto|]].
      unfold qsum in *. cbn [map fold_right]. rewrite (Off t w) by auto. rewrite EL. qlra.
    + (* towards any other variable *)
      assert (Wv : w <> v) by congruence.
      assert (L : forall t, lmsg i mu v (D t i v)).
      { intros t'. eapply msg_ext; [|apply (s_out _ _ _ _ HS); [left|]; auto]. intros u _ Hu. unfold inb in Hu.
        apply andb_true_iff in Hu as (H1 & H2). apply mem_In in H1. apply negb_true_iff, Nat.eqb_neq in H2.
        apply Vi; auto. congruence. }
      destruct (L 0) as (l1 & l0 & L1 & L0 & EL). set (m := (l1 - l0)%Qc).
      assert (Em : forall t, D t i v = m).
      { intros t'. eapply msg_unique; [apply L|]. exists l1, l0. auto. }
      set (l := fun b : bool => if b then l1 else l0).
      assert (G : gmsg idx (bump v mu m) w (qsum (map (fun c => D t c w) idx))).
      { destruct t as [|s].
        - destruct idx as [|c0 idx]; [|cbn in Ht; lia]. apply gmsg_nil.
        - rewrite <- Nat.add_1_r. pose proof (sched_shift _ _ _ _ HS') as HS1.
          apply (IH _ _ _ (bump v mu m) w HS1); [| |cbn in Ht; lia].
          + intros t' u c Nu Hc Hu. cbn. rewrite (HM _ u c) by (auto; right; auto). unfold bump.
            destruct (Nat.eqb_spec u v) as [->|Nv]; [rewrite Em; reflexivity|].
            rewrite (s_off _ _ _ _ HS); [qlra|left; auto|]. intros X. eapply (Hp u c); eauto.
          + intros c u Hc Hu Nu O. change (0 + 1) with 1. replace 1 with (0 + 1) by reflexivity.
            rewrite (s_in _ _ _ _ HS' 0 c u) by auto. rewrite (HM _ u c) by (auto; right; auto).
            rewrite (qsum_none (fun c' => D 0 c' u)).
            2:{ intros c' Hc'. unfold others in Hc'. apply filter_In in Hc' as (Hc' & Ne).
                apply (s_off _ _ _ _ HS); [right; auto|]. intros X. specialize (O c' Hc' X). subst c'.
                rewrite Nat.eqb_refl in Ne. discriminate. }
            unfold bump. destruct (Nat.eqb_spec u v) as [->|Nv]; [rewrite Em; qlra|].
            rewrite (s_off _ _ _ _ HS); [qlra|left; auto|]. intros X. eapply (Hp u c); eauto. }
      destruct G as (q1 & q0 & B1 & B0 & E).
      exists (q1 - floor_of i v mu + l false)%Qc, (q0 - floor_of i v mu + l false)%Qc.
      assert (P : priv i v w = false).
      { destruct (priv i v w) eqn:P; [|reflexivity]. apply priv_true in P. tauto. }
      assert (LL : forall x, bst (ok i) (priv i v) mu v x (l x)) by (intros [|]; auto).
      split; [apply add_far; auto|split; [apply add_far; auto|]].
      unfold qsum in *. cbn [map fold_right]. rewrite (s_off _ _ _ _ HS t i w) by (auto; left; auto). rewrite E. qlra.
Qed.
End Forest.
