(** * Unfiltered schedules as optimisation over unfoldings (no code is modelled here). *)
From Coq Require Import Permutation.
From Verif Require Import Num NumFacts Arr ArrFacts Spec SpecRun SpecForest SpecView SpecUnfold MinSum P_Ksat P_Tsp_Sched P_Tsp_Order.
From Verif Require Import M_Tsp_Run P_Ksat_Py P_PyRef_Ksat P_Forest P_Forest_Limit P_Ksat_Tree P_Ksat_View.
Local Open Scope nat_scope.

Lemma finite_choice (B : Type) (P : nat -> B -> Prop) (d : B) l : (forall x, In x l -> exists y, P x y) ->
  exists g : nat -> B, forall x, In x l -> P x (g x).
Proof.
  induction l as [|x l IH]; intros H; [exists (fun _ => d); intros x []|].
  destruct IH as (g & Hg); [intros y Iy; apply H; now right|]. destruct (H x) as (y & Hy); [now left|].
  exists (fun z => if z =? x then y else g z). intros z [<-|Iz]; [now rewrite Nat.eqb_refl|].
  destruct (Nat.eqb_spec z x) as [->|_]; [exact Hy|auto].
Qed.

(** [q] is the least cost of the labellings with root value [b] *)
Definition least (R : labelling -> Prop) (C : labelling -> Qc) (b : bool) (q : Qc) : Prop :=
  (exists a, a [] = b /\ R a /\ C a = q) /\ forall a, a [] = b -> R a -> (q <= C a)%Qc.

Lemma qsum_le l (F G : nat -> Qc) : (forall x, In x l -> (F x <= G x)%Qc) -> (qsum (map F l) <= qsum (map G l))%Qc.
Proof.
  induction l as [|x l IH]; intros H; [apply Qcle_refl|]. cbn [map]. unfold qsum in *. cbn [fold_right].
  pose proof (H x (or_introl eq_refl)). pose proof (IH (fun y Iy => H y (or_intror Iy))). qlra.
Qed.
Lemma qsum_plus l (F G : nat -> Qc) : qsum (map (fun x => F x + G x)%Qc l) = (qsum (map F l) + qsum (map G l))%Qc.
Proof. induction l as [|x l IH]; cbn [map]; unfold qsum in *; cbn [fold_right]; [ring|]. rewrite IH. ring. Qed.
Lemma qsum_minus l (F G : nat -> Qc) : qsum (map (fun x => F x - G x)%Qc l) = (qsum (map F l) - qsum (map G l))%Qc.
Proof. induction l as [|x l IH]; cbn [map]; unfold qsum in *; cbn [fold_right]; [ring|]. rewrite IH. ring. Qed.

Lemma bst_iff U P Q f mu w b q : (forall a, P a <-> Q a) -> bst U P f mu w b q -> bst U Q f mu w b q.
Proof.
  intros E ((a & A1 & A2 & A3) & B). split; [exists a; split; [now apply E|auto]|]. intros a' H1 H2. apply B; [now apply E|exact H2].
Qed.

Section Unfold.
Variables (nv : nat) (N : network).
(** constraints over distinct variables below [nv], which depend on these only *)
Hypothesis Sn : forall c, In c (n_all N) -> NoDup (n_scope N c) /\ (forall u, In u (n_scope N c) -> u < nv) /\
  forall x y, (forall u, In u (n_scope N c) -> x u = y u) -> n_allows N c x -> n_allows N c y.

Lemma containing_iff x c : In c (containing N x) <-> In c (n_all N) /\ In x (n_scope N c).
Proof.
  unfold containing. rewrite filter_In, existsb_exists. split.
  - intros (H & y & I & E). apply Nat.eqb_eq in E. subst y. auto.
  - intros (H & I). split; [exact H|]. exists x. split; auto. apply Nat.eqb_refl.
Qed.
Lemma fsum_scope c v nu a : In c (n_all N) ->
  fsum (seq 0 nv) (inb (n_scope N) c v) nu a = qsum (map (fun u => if a u then nu u else 0%Qc) (others v (n_scope N c))).
Proof.
  intros Ic. destruct (Sn c Ic) as (Nd & B & _). unfold fsum. rewrite (qsum_outside _ nv (others v (n_scope N c))).
  - f_equal. apply map_ext_in. intros u Hu. apply others_iff in Hu as (I & Ne). unfold inb.
    rewrite (proj2 (mem_In _ _) I). apply Nat.eqb_neq in Ne. rewrite Ne. reflexivity.
  - apply NoDup_filter, Nd.
  - intros u Hu. apply others_iff in Hu as (I & _). auto.
  - intros u _ Hu. unfold inb. destruct (mem u (n_scope N c)) eqn:M; [|reflexivity]. destruct (Nat.eqb_spec u v); [reflexivity|].
    exfalso. apply Hu, others_iff. split; [now apply mem_In|auto].
Qed.

Section Step.
Variables (R : nat -> nat -> labelling -> Prop) (C : nat -> nat -> labelling -> Qc) (v : nat) (cs : list nat).
Variables (nu : nat -> nat -> Qc) (q1 q0 : nat -> nat -> Qc) (m1 m0 : nat -> Qc).
Hypothesis HAll : forall c, In c cs -> In c (n_all N).
Hypothesis HO : forall c w, In c cs -> In w (others v (n_scope N c)) ->
  least (R c w) (C c w) true (q1 c w) /\ least (R c w) (C c w) false (q0 c w) /\ nu c w = (q1 c w - q0 c w)%Qc.
Hypothesis HM : forall c, In c cs ->
  bst (seq 0 nv) (n_allows N c) (inb (n_scope N) c v) (nu c) v true (m1 c) /\
  bst (seq 0 nv) (n_allows N c) (inb (n_scope N) c v) (nu c) v false (m0 c).
Let q (b : bool) := if b then q1 else q0.
Let m (b : bool) := if b then m1 else m0.

Lemma split_cost c (x : nat -> bool) : In c cs ->
  qsum (map (fun w => q (x w) c w) (others v (n_scope N c)))
  = (qsum (map (q0 c) (others v (n_scope N c))) + fsum (seq 0 nv) (inb (n_scope N) c v) (nu c) x)%Qc.
Proof.
  intros Ic. rewrite fsum_scope by now apply HAll. rewrite <- qsum_plus. f_equal. apply map_ext_in. intros w Hw.
  destruct (HO c w Ic Hw) as (_ & _ & E). unfold q. destruct (x w); [rewrite E|]; ring.
Qed.

Lemma least_clauses b :
  least (copies_hold N R cs v) (copies_cost N C cs v) b
    (qsum (map (fun c => (qsum (map (q0 c) (others v (n_scope N c))) + m b c)%Qc) cs)).
Proof.
  assert (HB : forall c, In c cs -> bst (seq 0 nv) (n_allows N c) (inb (n_scope N) c v) (nu c) v b (m b c)).
  { intros c Ic. unfold m. destruct b; apply HM, Ic. }
  assert (HL : forall c w e, In c cs -> In w (others v (n_scope N c)) -> least (R c w) (C c w) e (q e c w)).
  { intros c w e Ic Iw. destruct (HO c w Ic Iw) as (A & B & _). unfold q. destruct e; assumption. }
  split.
  - destruct (finite_choice (nat -> bool) (fun c x => n_allows N c x /\ x v = b /\ m b c = fsum (seq 0 nv) (inb (n_scope N) c v) (nu c) x) (fun _ => false) cs)
      as (x & Hx).
    { intros c Ic. destruct (HB c Ic) as ((x & A) & _). exists x. exact A. }
    destruct (finite_choice (nat -> bool -> labelling) (fun c A => forall w e, In w (others v (n_scope N c)) -> A w e [] = e /\ R c w (A w e) /\ C c w (A w e) = q e c w)
      (fun _ _ _ => false) cs) as (A & HA).
    { intros c Ic.
      destruct (finite_choice (bool -> labelling) (fun w A => forall e, A e [] = e /\ R c w (A e) /\ C c w (A e) = q e c w)
        (fun _ _ => false) (others v (n_scope N c))) as (g & Hg).
      - intros w Iw. destruct (HL c w true Ic Iw) as ((a1 & H1) & _). destruct (HL c w false Ic Iw) as ((a0 & H0) & _).
        exists (fun e : bool => if e then a1 else a0). intros [|]; assumption.
      - exists g. intros w e Iw. now apply Hg. }
    exists (fun p => match p with [] => b | (c, w) :: p' => A c w (x c w) p' end). split; [reflexivity|]. split.
    + intros c Ic. destruct (Hx c Ic) as (X1 & X2 & _). split.
      * apply (Sn c) with (x := x c); [now apply HAll| |exact X1]. intros w Iw. destruct (Nat.eqb_spec w v) as [->|Ne]; [exact X2|].
        symmetry. apply (HA c Ic w). apply others_iff. auto.
      * intros w Iw. apply (HA c Ic w (x c w) Iw).
    + unfold copies_cost. f_equal. apply map_ext_in. intros c Ic. destruct (Hx c Ic) as (_ & _ & ->). rewrite <- (split_cost c (x c) Ic). f_equal.
      apply map_ext_in. intros w Iw. apply (HA c Ic w (x c w) Iw).
  - intros a Ha HR. unfold copies_cost. apply qsum_le. intros c Ic. destruct (HR c Ic) as (T & HW).
    set (x := fun w => if w =? v then a [] else a [(c, w)]) in *.
    assert (Xv : x v = b) by (unfold x; now rewrite Nat.eqb_refl).
    assert (Mx : (m b c <= fsum (seq 0 nv) (inb (n_scope N) c v) (nu c) x)%Qc) by (apply (HB c Ic); [exact T|exact Xv]).
    assert (Le : (qsum (map (fun w => q (x w) c w) (others v (n_scope N c))) <= qsum (map (fun w => C c w (after a c w)) (others v (n_scope N c))))%Qc).
    { apply qsum_le. intros w Iw. apply (HL c w (x w) Ic Iw).
      - unfold after, x. apply others_iff in Iw as (_ & Ne). apply Nat.eqb_neq in Ne. now rewrite Ne.
      - now apply HW. }
    rewrite split_cost in Le by exact Ic. unfold row in *. qlra.
Qed.
End Step.

Lemma least_ext (R R' : labelling -> Prop) (C C' : labelling -> Qc) b q k :
  least R C b q -> (forall a, R' a <-> R a) -> (forall a, a [] = b -> C' a = (k + C a)%Qc) -> least R' C' b (k + q)%Qc.
Proof.
  intros ((a & A1 & A2 & A3) & B) HR HC. split.
  - exists a. split; [exact A1|]. split; [now apply HR|]. rewrite HC, A3 by auto. reflexivity.
  - intros a' A' R0. rewrite HC by auto. apply HR in R0. pose proof (B a' A' R0). qlra.
Qed.

Variables V Rm D : nat -> nat -> nat -> Qc.
Hypothesis F : fsched (seq 0 nv) (n_scope N) (n_allows N) (n_all N) 0%Qc V Rm D (n_price N).
Hypothesis V0 : forall c v, In c (n_all N) -> In v (n_scope N c) -> V 0 c v = n_price N v.

Definition branch_value (n c w : nat) (p : Qc * Qc) : Prop :=
  least (branch_holds N n c w) (branch_cost N n c w) true (fst p) /\ least (branch_holds N n c w) (branch_cost N n c w) false (snd p) /\
  V n c w = (fst p - snd p)%Qc.

Lemma un_D t c v : In c (n_all N) -> In v (n_scope N c) -> D t c v = Rm t c v.
Proof.
  intros Ic I. destruct t as [|t]; [rewrite (f_first _ _ _ _ _ _ _ _ _ F) by auto; ring|].
  rewrite <- Nat.add_1_r, (f_next _ _ _ _ _ _ _ _ _ F) by auto. ring.
Qed.
Lemma un_sum t v : qsum (map (fun c' => D t c' v) (n_all N)) = qsum (map (fun c' => D t c' v) (containing N v)).
Proof.
  unfold containing. apply qsum_filter_zero. intros y Iy E. apply (f_off _ _ _ _ _ _ _ _ _ F); [exact Iy|]. intros I.
  assert (X : existsb (Nat.eqb v) (n_scope N y) = true); [|congruence]. apply existsb_exists. exists v. split; auto. apply Nat.eqb_refl.
Qed.
Lemma un_others t c v : qsum (map (fun c' => D t c' v) (others c (n_all N))) = qsum (map (fun c' => D t c' v) (others c (containing N v))).
Proof.
  rewrite (qsum_filter_zero _ (fun c' => existsb (Nat.eqb v) (n_scope N c')) (others c (n_all N))).
  - f_equal. f_equal. unfold others, containing. generalize (n_all N) as l. clear. intros l. induction l as [|y l IH]; [reflexivity|]. cbn [filter].
    destruct (negb (y =? c)) eqn:E1; destruct (existsb (Nat.eqb v) (n_scope N y)) eqn:E2; cbn [filter]; rewrite ?E1, ?E2, IH; reflexivity.
  - intros y Iy E. apply others_iff in Iy as (Iy & _). apply (f_off _ _ _ _ _ _ _ _ _ F); [exact Iy|]. intros I.
    assert (X : existsb (Nat.eqb v) (n_scope N y) = true); [|congruence]. apply existsb_exists. exists v. split; auto. apply Nat.eqb_refl.
Qed.

(** the clauses [cs] around [v], given the branches beyond them *)
Lemma clauses_value n v cs :
  (forall c w, In c (n_all N) -> In w (n_scope N c) -> exists p, branch_value n c w p) ->
  (forall c, In c cs -> In c (n_all N) /\ In v (n_scope N c)) ->
  exists s1 s0, least (copies_hold N (branch_holds N n) cs v) (copies_cost N (branch_cost N n) cs v) true s1 /\
    least (copies_hold N (branch_holds N n) cs v) (copies_cost N (branch_cost N n) cs v) false s0 /\
    qsum (map (fun c => D n c v) cs) = (s1 - s0)%Qc.
Proof.
  intros HI Hcs.
  destruct (finite_choice (nat -> Qc * Qc) (fun c g => forall w, In w (n_scope N c) -> branch_value n c w (g w)) (fun _ => (0, 0)%Qc) cs) as (g & Hg).
  { intros c Ic. apply finite_choice; [exact (0, 0)%Qc|]. intros w Iw. apply HI; [apply Hcs, Ic|exact Iw]. }
  destruct (finite_choice (Qc * Qc) (fun c m => bst (seq 0 nv) (n_allows N c) (inb (n_scope N) c v) (V n c) v true (fst m) /\
     bst (seq 0 nv) (n_allows N c) (inb (n_scope N) c v) (V n c) v false (snd m) /\ D n c v = (fst m - snd m)%Qc) (0, 0)%Qc cs) as (m & Hm).
  { intros c Ic. destruct (Hcs c Ic) as (Is & Iv).
    destruct (f_raw _ _ _ _ _ _ _ _ _ F n c v) as (b1 & b0 & B1 & B0 & E); [exact Is|exact Iv|].
    exists (b1, b0). cbn [fst snd]. split; [exact B1|]. split; [exact B0|]. rewrite un_D by auto. exact E. }
  set (q1 := fun c w => fst (g c w)). set (q0 := fun c w => snd (g c w)).
  assert (HO : forall c w, In c cs -> In w (others v (n_scope N c)) ->
    least (branch_holds N n c w) (branch_cost N n c w) true (q1 c w) /\ least (branch_holds N n c w) (branch_cost N n c w) false (q0 c w) /\
    V n c w = (q1 c w - q0 c w)%Qc).
  { intros c w Ic Iw. apply others_iff in Iw as (Iw & _). apply (Hg c Ic w Iw). }
  assert (HM : forall c, In c cs ->
    bst (seq 0 nv) (n_allows N c) (inb (n_scope N) c v) (V n c) v true (fst (m c)) /\ bst (seq 0 nv) (n_allows N c) (inb (n_scope N) c v) (V n c) v false (snd (m c))).
  { intros c Ic. destruct (Hm c Ic) as (A & B & _). auto. }
  pose proof (least_clauses _ _ v cs (V n) q1 q0 (fun c => fst (m c)) (fun c => snd (m c)) (fun c Ic => proj1 (Hcs c Ic)) HO HM) as L.
  eexists. eexists. split; [apply (L true)|]. split; [apply (L false)|]. rewrite <- qsum_minus. f_equal. apply map_ext_in.
  intros c Ic. destruct (Hm c Ic) as (_ & _ & E). cbn [fst snd]. rewrite E. ring.
Qed.

Lemma branch_values n : forall c v, In c (n_all N) -> In v (n_scope N c) -> exists p, branch_value n c v p.
Proof.
  induction n as [|n IH]; intros c v Ic Iv.
  - exists (n_price N v, 0%Qc). split; [|split]; cbn [fst snd].
    + split; [exists (fun _ => true); cbn; repeat split; ring|]. intros a Ha _. cbn. rewrite Ha. qlra.
    + split; [exists (fun _ => false); cbn; repeat split; ring|]. intros a Ha _. cbn. rewrite Ha. qlra.
    + rewrite V0 by auto. ring.
  - destruct (clauses_value n v (others c (containing N v)) IH) as (s1 & s0 & L1 & L0 & E).
    { intros c' Ic'. apply others_iff in Ic' as (Ic' & _). now apply containing_iff in Ic'. }
    exists (n_price N v + s1, 0 + s0)%Qc. split; [|split]; cbn [fst snd].
    + eapply least_ext; [exact L1|intros a; reflexivity|]. intros a Ha. cbn [branch_cost]. now rewrite Ha.
    + eapply least_ext; [exact L0|intros a; reflexivity|]. intros a Ha. cbn [branch_cost]. now rewrite Ha.
    + rewrite <- Nat.add_1_r, (f_in _ _ _ _ _ _ _ _ _ F) by auto. rewrite un_others, E. ring.
Qed.

Lemma unfolding_value n v : exists q1 q0, cheapest N (S n) v true q1 /\ cheapest N (S n) v false q0 /\
  qsum (map (fun c => D n c v) (n_all N)) = (q1 - q0)%Qc.
Proof.
  rewrite un_sum. apply clauses_value; [intros c w; apply branch_values|]. intros c Ic. now apply containing_iff in Ic.
Qed.
Lemma unfolding_zero v : cheapest N 0 v true 0%Qc /\ cheapest N 0 v false 0%Qc.
Proof.
  split.
  - split; [exists (fun _ => true); repeat split|]. intros a _ _. apply Qcle_refl.
  - split; [exists (fun _ => false); repeat split|]. intros a _ _. apply Qcle_refl.
Qed.
End Unfold.
