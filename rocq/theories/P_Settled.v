(** * Settled messages are locally optimal: the general argument.

    A problem is given by variables with costs and constraints over them.  If the messages of the
    constraints do not weaken the decisions, the decisions satisfy every constraint and no allowed
    assignment that differs loosely is much cheaper. *)
From Coq Require Import Permutation.
From Verif Require Import Num NumFacts Spec MinSum MinSumFacts SpecCover SpecSettled.
Local Open Scope nat_scope.

Lemma total_sum {V} (f : V -> Qc) (y : V -> bool) l : total (map f l) (map y l) = qsum (map (fun v => if y v then f v else 0%Qc) l).
Proof. unfold qsum. induction l as [|a l IH]; cbn; [reflexivity|]. now rewrite IH. Qed.
Lemma sum_plus {A} (f g : A -> Qc) l : qsum (map (fun a => f a + g a)%Qc l) = (qsum (map f l) + qsum (map g l))%Qc.
Proof. unfold qsum. induction l as [|a l IH]; cbn [map fold_right]; [ring|]. rewrite IH. ring. Qed.
Lemma sum_minus {A} (f g : A -> Qc) l : qsum (map (fun a => f a - g a)%Qc l) = (qsum (map f l) - qsum (map g l))%Qc.
Proof. unfold qsum. induction l as [|a l IH]; cbn [map fold_right]; [ring|]. rewrite IH. ring. Qed.
Lemma sum_zero {A} (f : A -> Qc) l : (forall a, In a l -> f a = 0%Qc) -> qsum (map f l) = 0%Qc.
Proof. unfold qsum. intro H. induction l as [|a l IH]; cbn [map fold_right]; [reflexivity|]. rewrite IH by (intros; apply H; now right). rewrite H by now left. ring. Qed.
Lemma sum_ext {A} (f g : A -> Qc) l : (forall a, In a l -> f a = g a) -> qsum (map f l) = qsum (map g l).
Proof. intro H. f_equal. now apply map_ext_in. Qed.
Lemma sum_le {A} (f g : A -> Qc) l : (forall a, In a l -> f a <= g a)%Qc -> (qsum (map f l) <= qsum (map g l))%Qc.
Proof.
  unfold qsum. intro H. induction l as [|a l IH]; cbn [map fold_right]; [apply Qcle_refl|].
  apply Qcplus_le_compat; [apply H; now left|apply IH; intros; apply H; now right].
Qed.
Lemma sum_swap {A B} (f : A -> B -> Qc) l m :
  qsum (map (fun a => qsum (map (fun b => f a b) m)) l) = qsum (map (fun b => qsum (map (fun a => f a b) l)) m).
Proof.
  induction l as [|a l IH]; cbn [map].
  - unfold qsum at 1. cbn. symmetry. apply sum_zero. reflexivity.
  - transitivity (qsum (map (fun b => f a b) m) + qsum (map (fun b => qsum (map (fun a => f a b) l)) m))%Qc; [rewrite <- IH; reflexivity|].
    rewrite <- sum_plus. apply sum_ext. reflexivity.
Qed.
Lemma sum_const {A} (k : Qc) (l : list A) : qsum (map (fun _ => k) l) = (qn (length l) * k)%Qc.
Proof. unfold qsum. induction l as [|a l IH]; cbn [map fold_right length]; [cbn; ring|]. rewrite IH. cbn [qn]. ring. Qed.
Lemma sum_filter {A} (f : A -> Qc) (q : A -> bool) l : qsum (map f (filter q l)) = qsum (map (fun a => if q a then f a else 0%Qc) l).
Proof.
  unfold qsum. induction l as [|a l IH]; cbn [map filter fold_right]; [reflexivity|]. rewrite <- IH.
  destruct (q a); cbn [map fold_right]; ring.
Qed.
Lemma sum_perm l l' : Permutation l l' -> qsum l = qsum l'.
Proof. unfold qsum. induction 1; cbn [fold_right]; [reflexivity|congruence|ring|congruence]. Qed.
Lemma nth_error_ext_bool (a b : list bool) : length a = length b -> (forall k z, nth_error a k = Some z -> nth_error b k = Some z) -> a = b.
Proof.
  revert b. induction a as [|x a IH]; intros [|y b] L H; try discriminate; auto.
  pose proof (H 0 x eq_refl) as E. injection E as ->. f_equal. apply IH; [now injection L|]. intros k z. apply (H (S k)).
Qed.

Lemma sum_opp {A} (f : A -> Qc) l : qsum (map (fun a => - f a)%Qc l) = (- qsum (map f l))%Qc.
Proof. unfold qsum. induction l as [|a l IH]; cbn [map fold_right]; [ring|]. rewrite IH. ring. Qed.
Lemma sum_single {A} (a : A) (f : A -> Qc) l : NoDup l -> In a l -> (forall b, In b l -> b <> a -> f b = 0%Qc) -> qsum (map f l) = f a.
Proof.
  unfold qsum. induction l as [|b l IH]; intros N I Z; [destruct I|]. inversion N; subst. cbn [map fold_right]. destruct I as [->|I].
  - fold (qsum (map f l)). rewrite sum_zero; [ring|]. intros c Ic. apply Z; [now right|]. intros ->. contradiction.
  - rewrite IH; auto; [|intros; apply Z; auto; now right]. rewrite (Z b); [ring|now left|]. intros ->. contradiction.
Qed.
Lemma sum_filter_const {A} (q : A -> bool) (l : list A) (k : Qc) : qsum (map (fun a => if q a then k else 0%Qc) l) = (qn (length (filter q l)) * k)%Qc.
Proof. now rewrite <- sum_const, sum_filter. Qed.
Lemma filter_filter_and {A} (p q : A -> bool) l : filter (fun a => p a && q a) l = filter q (filter p l).
Proof. induction l as [|a l IH]; cbn; auto. destruct (p a); cbn; [destruct (q a); now rewrite IH|auto]. Qed.
Lemma filter_all {A} (p : A -> bool) l : filter p l = l <-> forall a, In a l -> p a = true.
Proof.
  split.
  - intros H a I. rewrite <- H in I. now apply filter_In in I.
  - intro H. induction l as [|a l IH]; cbn; auto. rewrite (H a) by now left. f_equal. apply IH. intros; apply H; now right.
Qed.

Lemma filter_none {A} (p : A -> bool) l : (forall a, p a = false) -> filter p l = [].
Proof. intro H. induction l as [|a l IH]; cbn; auto. now rewrite H. Qed.
Lemma filter_one {A} (a : A) (p : A -> bool) l : NoDup l -> In a l -> (forall b, In b l -> (p b = true <-> a = b)) -> filter p l = [a].
Proof.
  intros N I H. apply Permutation_length_1_inv. apply NoDup_Permutation; [repeat constructor; auto|now apply NoDup_filter|].
  intro b. rewrite filter_In. cbn. split.
  - intros [<-|[]]. split; auto. now apply H.
  - intros (Ib & Pb). left. now apply H.
Qed.
Lemma sum_split_one {f : nat -> Qc} a l : NoDup l -> In a l -> qsum (map f l) = (f a + qsum (map f (others a l)))%Qc.
Proof.
  unfold qsum, others. induction l as [|b l IH]; intros N I; [destruct I|]. inversion N; subst. cbn [map fold_right filter]. destruct I as [->|I].
  - rewrite Nat.eqb_refl. cbn [negb]. f_equal. f_equal. f_equal. symmetry. apply filter_all. intros c Ic. apply negb_true_iff, Nat.eqb_neq. intros ->. contradiction.
  - rewrite IH by auto. destruct (Nat.eqb_spec b a) as [->|Nb]; [contradiction|]. cbn [negb map fold_right]. ring.
Qed.
Lemma filter_swap_others a p l : filter p (others a l) = others a (filter p l).
Proof. unfold others. induction l as [|b l IH]; cbn; auto. destruct (negb (b =? a)) eqn:E, (p b) eqn:P; cbn; rewrite ?E, ?P, IH; auto. Qed.

Lemma close_supports e b a r : close e a r -> supports e b a r.
Proof. intros (A & B). unfold supports. destruct (qltb b 0); auto. Qed.

Section Graph.
Context {V F : Type}.
Variables (eqV : forall a b : V, {a = b} + {a <> b}) (eqF : forall a b : F, {a = b} + {a <> b}).
Variables (vars : list V) (facs : list F) (scope : F -> list V) (allowed : F -> list bool -> Prop).
Variables (cost b : V -> Qc) (m d X : F -> V -> Qc) (e e2 : Qc).
Hypothesis (Nv : NoDup vars) (Nf : NoDup facs).
Hypothesis Hs : forall c, In c facs -> NoDup (scope c) /\ incl (scope c) vars /\ scope c <> [].
Definition inc (v : V) (c : F) : bool := if in_dec eqV v (scope c) then true else false.
Hypothesis Hb : forall v, In v vars -> b v = (cost v + qsum (map (fun c => X c v) (filter (inc v) facs)))%Qc.
Hypothesis Hd : forall c k v, In c facs -> nth_error (scope c) k = Some v ->
  minsum_message (allowed c) (map (m c) (scope c)) k (Fin (d c v)).
Hypothesis He : forall c v, In c facs -> In v (scope c) -> supports e (b v) (m c v + d c v) (b v).
Hypothesis (H1 : (0 <= e)%Qc).
Hypothesis Hg : forall v, In v vars -> (b v < - e \/ e < b v)%Qc.

(** the decision and the size of the belief *)
Definition dec (v : V) : bool := qltb (b v) 0.
Definition size (v : V) : Qc := if dec v then (- b v)%Qc else b v.

Lemma size_pos v : In v vars -> (e < size v)%Qc.
Proof.
  intro I. unfold size, dec. destruct (Hg v I); destruct (qltb_spec (b v) 0); qlra.
Qed.
Lemma inc_true v c : inc v c = true <-> In v (scope c).
Proof. unfold inc. destruct (in_dec eqV v (scope c)); intuition discriminate. Qed.

Definition local (c : F) (y : V -> bool) : Qc := total (map (m c) (scope c)) (map y (scope c)).

Lemma inc_scope v c : In c facs -> In v (scope c) -> exists k, nth_error (scope c) k = Some v.
Proof. intros _ I. now apply In_nth_error. Qed.

(** cheapest completions of one variable *)
Lemma sides c v : In c facs -> In v (scope c) -> exists a1 a0 : Qc,
  (a1 - a0 = m c v + d c v)%Qc /\
  (exists x, length x = length (scope c) /\ allowed c x /\ total (map (m c) (scope c)) x = a1) /\
  (exists x, length x = length (scope c) /\ allowed c x /\ total (map (m c) (scope c)) x = a0) /\
  (forall k x, nth_error (scope c) k = Some v -> length x = length (scope c) -> allowed c x ->
     (nth_error x k = Some true -> a1 <= total (map (m c) (scope c)) x)%Qc /\
     (nth_error x k = Some false -> a0 <= total (map (m c) (scope c)) x)%Qc).
Proof.
  intros Ic Iv. destruct (In_nth_error _ _ Iv) as (k & Ek). pose proof (Hd c k v Ic Ek) as (v1 & v0 & B1 & B0 & Ev).
  destruct v1 as [q1| | |], v0 as [q0| | |]; cbn in Ev; try discriminate; try contradiction.
  injection Ev as Ev. destruct B1 as ((x1 & L1 & A1 & N1 & R1) & M1). destruct B0 as ((x0 & L0 & A0 & N0 & R0) & M0).
  assert (Em : nth k (map (m c) (scope c)) 0%Qc = m c v).
  { apply nth_error_nth. rewrite nth_error_map, Ek. reflexivity. }
  rewrite map_length in L1, L0. unfold rest in R1, R0. rewrite (nth_error_nth _ _ _ N1), Em in R1. rewrite (nth_error_nth _ _ _ N0) in R0.
  exists (q1 + m c v)%Qc, q0. split; [rewrite Ev; ring|]. split; [exists x1; repeat split; auto; rewrite R1; ring|].
  split; [exists x0; repeat split; auto; rewrite R0; ring|].
  intros k' x Ek' Lx Ax. assert (k' = k).
  { destruct (Hs c Ic) as (N & _). eapply (proj1 (NoDup_nth_error _) N); [apply nth_error_Some; congruence|congruence]. }
  subst k'. split; intro Nx.
  - specialize (M1 (rest k (map (m c) (scope c)) x)). assert (Y : (q1 <= rest k (map (m c) (scope c)) x)%Qc).
    { apply M1. exists x. rewrite map_length. auto. }
    unfold rest in Y. rewrite (nth_error_nth _ _ _ Nx), Em in Y. qlra.
  - specialize (M0 (rest k (map (m c) (scope c)) x)). assert (Y : (q0 <= rest k (map (m c) (scope c)) x)%Qc).
    { apply M0. exists x. rewrite map_length. auto. }
    unfold rest in Y. rewrite (nth_error_nth _ _ _ Nx) in Y. qlra.
Qed.

(** the decisions are the cheapest allowed configuration of every constraint *)
Lemma settled_factor c : In c facs -> allowed c (map dec (scope c)) /\
  forall x, length x = length (scope c) -> allowed c x ->
    (local c dec <= total (map (m c) (scope c)) x)%Qc /\
    forall k v, nth_error (scope c) k = Some v -> nth_error x k = Some (negb (dec v)) ->
      (local c dec + (size v - e) <= total (map (m c) (scope c)) x)%Qc.
Proof.
  intro Ic. destruct (Hs c Ic) as (Ns & Incl & Hne). set (B := total (map (m c) (scope c))).
  (* a configuration that disagrees is not cheapest *)
  assert (better : forall x k v, length x = length (scope c) -> allowed c x -> nth_error (scope c) k = Some v ->
    nth_error x k = Some (negb (dec v)) -> exists x', length x' = length (scope c) /\ allowed c x' /\ (B x' + (size v - e) <= B x)%Qc).
  { intros x k v Lx Ax Ek Ex. assert (Iv : In v (scope c)) by (eapply nth_error_In; eauto).
    destruct (sides c v Ic Iv) as (a1 & a0 & Ea & (x1 & L1 & A1 & T1) & (x0 & L0 & A0 & T0) & Hmin).
    destruct (Hmin k x Ek Lx Ax) as [M1 M0]. fold B in M1, M0, T1, T0. pose proof (He c v Ic Iv) as d1. unfold supports in d1. fold (dec v) in d1.
    unfold size. destruct (dec v) eqn:Ed; cbn [negb] in Ex.
    - exists x1. split; auto. split; auto. specialize (M0 Ex). rewrite T1. qlra.
    - exists x0. split; auto. split; auto. specialize (M1 Ex). rewrite T0. qlra. }
  (* a cheapest configuration *)
  assert (cheapest : exists y, length y = length (scope c) /\ allowed c y /\ forall x, length x = length (scope c) -> allowed c x -> (B y <= B x)%Qc).
  { assert (exists v0, nth_error (scope c) 0 = Some v0) as (v0 & E0).
    { clear - Hne. destruct (scope c) as [|v0 sc]; [congruence|]. now exists v0. }
    destruct (sides c v0 Ic) as (a1 & a0 & Ea & (x1 & L1 & A1 & T1) & (x0 & L0 & A0 & T0) & Hmin); [eapply nth_error_In; eauto|].
    fold B in T1, T0. destruct (Qclt_le_dec a1 a0) as [L|L]; [exists x1|exists x0]; (split; auto; split; auto); intros x Lx Ax;
    destruct (Hmin 0 x E0 Lx Ax) as [M1 M0]; fold B in M1, M0;
    (destruct x as [|[|] x]; [destruct (scope c); [discriminate|discriminate Lx]|specialize (M1 eq_refl)|specialize (M0 eq_refl)]); rewrite ?T1, ?T0; qlra. }
  destruct cheapest as (y & Ly & Ay & My).
  assert (Ey : y = map dec (scope c)).
  { apply nth_error_ext_bool; [rewrite map_length; exact Ly|]. intros k z Ez. rewrite nth_error_map.
    assert (Hk : k < length (scope c)) by (rewrite <- Ly; apply nth_error_Some; congruence).
    destruct (nth_error (scope c) k) as [v|] eqn:Ek; [|apply nth_error_None in Ek; lia]. cbn.
    destruct (Bool.bool_dec z (dec v)) as [->|N]; auto. exfalso. assert (z = negb (dec v)) by (clear - N; destruct z, (dec v); cbn; congruence). subst z.
    destruct (better y k v Ly Ay Ek Ez) as (x' & L' & A' & B'). specialize (My x' L' A').
    pose proof (size_pos v (Incl v (nth_error_In _ _ Ek))). qlra. }
  subst y. split; auto. intros x Lx Ax. split; [apply My; auto|]. intros k v Ek Ex.
  destruct (better x k v Lx Ax Ek Ex) as (x' & L' & A' & B'). specialize (My x' L' A'). unfold local. fold B. qlra.
Qed.

(** The difference between another assignment and the decisions. *)
Section Exchange.
Variables (y : V -> bool) (act : F -> bool) (owner : F -> V).
Hypothesis Hm : forall c v, In c facs -> act c = true -> In v (scope c) -> supports e2 (b v) (b v) (m c v + X c v).
Hypothesis Hy : forall c, In c facs -> act c = true -> allowed c (map y (scope c)).
Definition dif (v : V) : bool := xorb (y v) (dec v).
Hypothesis Hact : forall c v, In c facs -> act c = false -> In v (scope c) -> dif v = true -> X c v = 0%Qc.
Let live := filter act facs.
Hypothesis Hown : forall v c c', In v vars -> dif v = true -> In c live -> In c' live ->
  In v (scope c) -> In v (scope c') -> c <> c' -> owner c = v \/ owner c' = v.
Definition sgn (v : V) (q : Qc) : Qc := if dec v then (- q)%Qc else q.
Definition deg (v : V) : nat := length (filter (inc v) live).
Definition owns (v : V) (c : F) : bool := if eqV (owner c) v then true else false.
Definition own (v : V) : nat := length (filter (fun c => inc v c && owns v c) live).
Definition on (b : bool) (q : Qc) : Qc := if b then q else 0%Qc.

Lemma sgn_size v : sgn v (b v) = size v.
Proof. reflexivity. Qed.
Lemma sum_scope c f : In c facs -> qsum (map f (scope c)) = qsum (map (fun v => on (inc v c) (f v)) vars).
Proof.
  intro Ic. destruct (Hs c Ic) as (Ns & Incl & _). unfold on. rewrite <- (sum_filter f (fun v => inc v c)). apply sum_perm, Permutation_map.
  apply NoDup_Permutation; [auto|now apply NoDup_filter|]. intro v. rewrite filter_In, inc_true. split; [auto|tauto].
Qed.
Lemma local_diff c : (local c y - local c dec)%Qc = qsum (map (fun v => on (dif v) (sgn v (m c v))) (scope c)).
Proof.
  unfold local. rewrite !total_sum, <- sum_minus. apply sum_ext. intros v _. unfold dif, on, sgn. destruct (y v), (dec v); cbn; ring.
Qed.
Lemma cost_diff : (total (map cost vars) (map y vars) - total (map cost vars) (map dec vars))%Qc = qsum (map (fun v => on (dif v) (sgn v (cost v))) vars).
Proof.
  rewrite !total_sum, <- sum_minus. apply sum_ext. intros v _. unfold dif, on, sgn. destruct (y v), (dec v); cbn; ring.
Qed.
Lemma factor_gain c : In c facs -> act c = true ->
  (qsum (map (fun v => on (dif v) (on (owns v c) (size v - e))) (scope c)) <= qsum (map (fun v => on (dif v) (size v + e2 - sgn v (X c v))) (scope c)))%Qc.
Proof.
  intros Ic Ac. destruct (Hs c Ic) as (Ns & Incl & _). destruct (settled_factor c Ic) as (_ & Hmin).
  destruct (Hmin (map y (scope c)) (map_length _ _) (Hy c Ic Ac)) as (G0 & G1).
  assert (U : (local c y - local c dec <= qsum (map (fun v => on (dif v) (size v + e2 - sgn v (X c v))) (scope c)))%Qc).
  { rewrite local_diff. apply sum_le. intros v Iv. pose proof (Hm c v Ic Ac Iv) as m1. unfold supports in m1. fold (dec v) in m1. unfold on, sgn, size. destruct (dif v), (dec v); qlra. }
  fold (local c y) in G0, G1.
  assert (L : (qsum (map (fun v => on (dif v) (on (owns v c) (size v - e))) (scope c)) <= local c y - local c dec)%Qc).
  { destruct (in_dec eqV (owner c) (scope c)) as [Io|No].
    - destruct (dif (owner c)) eqn:Ed.
      + destruct (In_nth_error _ _ Io) as (k & Ek). specialize (G1 k (owner c) Ek). rewrite nth_error_map, Ek in G1. cbn [option_map] in G1.
        assert (Ey : y (owner c) = negb (dec (owner c))) by (unfold dif in Ed; destruct (y (owner c)), (dec (owner c)); auto).
        rewrite Ey in G1. specialize (G1 eq_refl).
        rewrite (sum_single (owner c)); auto.
        * unfold owns. rewrite Ed. destruct (eqV (owner c) (owner c)); [|congruence]. cbn [on]. qlra.
        * intros v Iv N. unfold owns. destruct (eqV (owner c) v); [congruence|]. unfold on. now destruct (dif v).
      + rewrite sum_zero; [qlra|]. intros v Iv. unfold owns. destruct (eqV (owner c) v); [subst v; rewrite Ed; reflexivity|]. unfold on. now destruct (dif v).
    - rewrite sum_zero; [qlra|]. intros v Iv. unfold owns. destruct (eqV (owner c) v); [congruence|]. unfold on. now destruct (dif v). }
  qlra.
Qed.

Lemma owned v : In v vars -> dif v = true -> deg v <= S (own v).
Proof.
  intros Iv Dv. unfold deg, own. set (l := filter (inc v) live).
  assert (El : filter (fun c => inc v c && owns v c) live = filter (owns v) l) by (unfold l; now rewrite filter_filter_and).
  rewrite El. assert (Nl : NoDup l) by (unfold l, live; now repeat apply NoDup_filter).
  assert (two : forall c c', In c l -> In c' l -> c <> c' -> owns v c = true \/ owns v c' = true).
  { intros c c' I I' N. unfold l in I, I'. apply filter_In in I as (I & J), I' as (I' & J'). apply inc_true in J, J'.
    unfold owns. destruct (Hown v c c' Iv Dv I I' J J' N) as [->| ->]; destruct (eqV v v); auto; congruence. }
  clear - Nl two. induction l as [|c l IH]; [cbn; lia|]. inversion Nl; subst. cbn [filter]. destruct (owns v c) eqn:Ec.
  - cbn [length]. apply le_n_S, IH; auto. intros; apply two; auto; now right.
  - cbn [length]. apply le_n_S. rewrite (proj2 (filter_all _ _)); [lia|]. intros c' I'.
    destruct (two c c'); [now left|now right|congruence|congruence|auto].
Qed.

Definition slack (v : V) : Qc := (qn (pred (deg v)) * e + qn (deg v) * e2)%Qc.

Lemma balance :
  (qsum (map (fun v => on (dif v) (qn (own v) * (size v - e))) vars) <=
   qsum (map (fun v => on (dif v) (qn (deg v) * (size v + e2) - sgn v (qsum (map (fun c => X c v) (filter (inc v) facs))))) vars))%Qc.
Proof.
  assert (Hl : forall c, In c live -> In c facs) by (intros c I; now apply filter_In in I).
  assert (G : (qsum (map (fun c => qsum (map (fun v => on (inc v c) (on (dif v) (on (owns v c) (size v - e)))) vars)) live) <=
    qsum (map (fun c => qsum (map (fun v => on (inc v c) (on (dif v) (size v + e2 - sgn v (X c v)))) vars)) live))%Qc).
  { apply sum_le. intros c Ic. rewrite <- !(sum_scope c) by auto. apply factor_gain; auto. now apply filter_In in Ic. }
  rewrite (sum_swap _ live vars) in G. rewrite (sum_swap _ live vars) in G.
  match type of G with (?a <= ?b)%Qc => match goal with |- (?a' <= ?b')%Qc => assert (a = a'); [|assert (b = b'); [|congruence]] end end.
  - apply sum_ext. intros v Iv. unfold own. rewrite <- (sum_filter_const (fun c => inc v c && owns v c) live).
    destruct (dif v); cbn [on].
    + apply sum_ext. intros c _. destruct (inc v c), (owns v c); reflexivity.
    + apply sum_zero. intros c _. now destruct (inc v c).
  - apply sum_ext. intros v Iv. destruct (dif v) eqn:Dv; cbn [on]; [|apply sum_zero; intros c _; now destruct (inc v c)].
    unfold deg. rewrite <- (sum_filter_const (inc v) live).
    assert (EX : qsum (map (fun c => X c v) (filter (inc v) facs)) = qsum (map (fun c => on (inc v c) (X c v)) live)).
    { unfold live. rewrite !sum_filter. apply sum_ext. intros c Ic. unfold on. destruct (act c) eqn:Ea; auto.
      destruct (inc v c) eqn:Ei; auto. apply inc_true in Ei. apply Hact; auto. }
    rewrite EX. unfold sgn. destruct (dec v).
    + rewrite <- sum_opp, <- sum_minus. apply sum_ext. intros c _. unfold on. destruct (inc v c); ring.
    + rewrite <- sum_minus. apply sum_ext. intros c _. unfold on. destruct (inc v c); ring.
Qed.

Lemma qn_le a c q : a <= c -> (0 <= q)%Qc -> (qn a * q <= qn c * q)%Qc.
Proof.
  intros L Q. induction L as [|c L IH]; [apply Qcle_refl|]. cbn [qn]. replace ((qn c + 1) * q)%Qc with (qn c * q + q)%Qc by ring. qlra.
Qed.

(** [roots] are variables that get all their constraints. *)
Variable roots : V -> bool.
Hypothesis Hroots : forall v c, In v vars -> roots v = true -> In c live -> In v (scope c) -> owner c = v.

Lemma rooted v : In v vars -> roots v = true -> own v = deg v.
Proof.
  intros Iv Rv. unfold own, deg. f_equal. apply filter_ext_in. intros c Ic. destruct (inc v c) eqn:Ei; auto.
  apply inc_true in Ei. unfold owns. rewrite (Hroots v c) by auto. cbn. now destruct (eqV v v).
Qed.

Theorem settled_exchange :
  (total (map cost vars) (map dec vars) + qsum (map (fun v => size v - e)%Qc (filter (fun v => dif v && roots v) vars))
   <= total (map cost vars) (map y vars) + qsum (map slack (filter dif vars)))%Qc.
Proof.
  pose proof balance as G. pose proof cost_diff as D.
  cut (qsum (map (fun v => on (dif v) (qn (deg v) * (size v + e2) - sgn v (qsum (map (fun c => X c v) (filter (inc v) facs))))) vars)
     - qsum (map (fun v => on (dif v) (qn (own v) * (size v - e))) vars)
     + qsum (map (fun v => size v - e)%Qc (filter (fun v => dif v && roots v) vars))
     <= qsum (map (fun v => on (dif v) (sgn v (cost v))) vars) + qsum (map slack (filter dif vars)))%Qc.
  { intro K. rewrite <- D in K. clear - K G. qlra. }
  rewrite !sum_filter, <- sum_minus, <- !sum_plus. apply sum_le. intros v Iv.
  destruct (dif v) eqn:Dv; cbn [on andb]; [|qlra].
  pose proof (size_pos v Iv) as Sp. pose proof (owned v Iv Dv) as Ow.
  assert (Ec : cost v = (b v - qsum (map (fun c => X c v) (filter (inc v) facs)))%Qc) by (rewrite (Hb v Iv); ring).
  set (S := qsum (map (fun c => X c v) (filter (inc v) facs))) in *.
  assert (Es : sgn v (cost v) = (size v - sgn v S)%Qc) by (rewrite Ec; unfold sgn, size; destruct (dec v); ring).
  rewrite Es. unfold slack. destruct (roots v) eqn:Rv.
  - rewrite (rooted v Iv Rv). destruct (deg v) as [|k]; cbn [pred qn]; [qlra|].
    replace ((qn k + 1) * (size v + e2) - sgn v S - (qn k + 1) * (size v - e) + (size v - e))%Qc
      with (size v - sgn v S + (qn k * e + (qn k + 1) * e2))%Qc by ring. apply Qcle_refl.
  - pose proof (qn_le (pred (deg v)) (own v) (size v - e) ltac:(lia) ltac:(qlra)) as Q.
    destruct (deg v) as [|k]; cbn [pred qn] in *.
    + assert (0 <= qn (own v) * (size v - e))%Qc by (eapply Qcle_trans; [|exact Q]; rewrite Qcmult_0_l; apply Qcle_refl). qlra.
    + replace ((qn k + 1) * (size v + e2) - sgn v S - qn (own v) * (size v - e) + 0)%Qc
        with (size v - sgn v S + (qn k * e + (qn k + 1) * e2) + (qn k * (size v - e) - qn (own v) * (size v - e)))%Qc by ring. qlra.
Qed.
End Exchange.
End Graph.

(** The constraints in [charged] are left out; instead their messages are added to the costs. *)
Lemma settled_charged {V F} (eqV : forall a b : V, {a = b} + {a <> b}) (vars : list V) (facs : list F) (scope : F -> list V)
  (allowed : F -> list bool -> Prop) (cost b : V -> Qc) (m d X : F -> V -> Qc) (e e2 : Qc) (y : V -> bool) (charged : F -> bool) (owner : F -> V) :
  NoDup vars -> NoDup facs ->
  (forall c, In c facs -> NoDup (scope c) /\ incl (scope c) vars /\ scope c <> []) ->
  (forall v, In v vars -> b v = (cost v + qsum (map (fun c => X c v) (filter (inc eqV scope v) facs)))%Qc) ->
  (forall c k v, In c facs -> nth_error (scope c) k = Some v -> minsum_message (allowed c) (map (m c) (scope c)) k (Fin (d c v))) ->
  (forall c v, In c facs -> In v (scope c) -> supports e (b v) (m c v + d c v) (b v)) ->
  (0 <= e)%Qc -> (forall v, In v vars -> (b v < - e \/ e < b v)%Qc) ->
  (forall c v, In c facs -> charged c = false -> In v (scope c) -> supports e2 (b v) (b v) (m c v + X c v)) ->
  (forall c, In c facs -> charged c = false -> allowed c (map y (scope c))) ->
  (forall v c c', In v vars -> dif b y v = true -> In c facs -> charged c = false -> In c' facs -> charged c' = false ->
     In v (scope c) -> In v (scope c') -> c <> c' -> owner c = v \/ owner c' = v) ->
  let charge (z : V -> bool) := qsum (map (fun c => total (map (X c) (scope c)) (map z (scope c))) (filter charged facs)) in
  (total (map cost vars) (map (dec b) vars) + charge (dec b) <=
   total (map cost vars) (map y vars) + charge y + qsum (map (slack eqV facs scope e e2 (fun c => negb (charged c))) (filter (dif b y) vars)))%Qc.
Proof.
  intros Nv Nf Hs Hb Hd He H1 Hg Hm Hy Hown charge.
  set (act := fun c => negb (charged c)).
  assert (Ac : forall c, act c = true <-> charged c = false) by (intro c; unfold act; destruct (charged c); cbn; intuition congruence).
  set (cost' := fun v => (cost v + qsum (map (fun c => X c v) (filter charged (filter (inc eqV scope v) facs))))%Qc).
  set (X' := fun c v => if charged c then 0%Qc else X c v).
  assert (Hb' : forall v, In v vars -> b v = (cost' v + qsum (map (fun c => X' c v) (filter (inc eqV scope v) facs)))%Qc).
  { intros v Iv. rewrite (Hb v Iv). unfold cost'. rewrite (sum_filter (fun c => X c v) charged). rewrite <- Qcplus_assoc, <- sum_plus. f_equal.
    apply sum_ext. intros c _. unfold X'. destruct (charged c); ring. }
  pose proof (settled_exchange eqV vars facs scope allowed cost' b m d X' e e2 Nv Nf Hs Hb' Hd He H1 Hg y act owner) as Q.
  specialize (Q ltac:(intros c v Ic A Iv; apply Ac in A; unfold X'; rewrite A; auto)).
  specialize (Q ltac:(intros c Ic A; apply Ac in A; auto)).
  specialize (Q ltac:(intros c v Ic A Iv _; unfold X'; unfold act in A; destruct (charged c); [reflexivity|discriminate])).
  specialize (Q ltac:(intros v c c' Iv Dv Ic Ic'; apply filter_In in Ic as (Ic & A), Ic' as (Ic' & A'); apply Ac in A, A'; auto)).
  specialize (Q (fun _ => false) ltac:(discriminate)).
  rewrite (filter_none (fun v => dif b y v && false)) in Q by (intros; apply andb_false_r). cbn [map] in Q. change (qsum []) with 0%Qc in Q. rewrite Qcplus_0_r in Q.
  assert (T : forall z, total (map cost' vars) (map z vars) = (total (map cost vars) (map z vars) + charge z)%Qc).
  { intro z. unfold charge. rewrite (sum_ext (fun c => total (map (X c) (scope c)) (map z (scope c))) (fun c => qsum (map (fun v => on (inc eqV scope v c) (on (z v) (X c v))) vars))).
    - rewrite sum_swap, !total_sum, <- sum_plus. apply sum_ext. intros v Iv. unfold cost'.
      rewrite !sum_filter. destruct (z v); cbn [on].
      + f_equal. apply sum_ext. intros c _. unfold on. destruct (charged c), (inc eqV scope v c); reflexivity.
      + rewrite Qcplus_0_l. symmetry. apply sum_zero. intros c _. destruct (charged c), (inc eqV scope v c); reflexivity.
    - intros c Ic. apply filter_In in Ic as (Ic & _). rewrite total_sum. rewrite (sum_scope eqV vars facs scope Nv Hs c (fun v => if z v then X c v else 0%Qc) Ic). reflexivity. }
  rewrite !T in Q. exact Q.
Qed.
