(** * Symmetries of K-SAT schedules: renaming variables and clauses, flipping signs, scaling
    (no code is modelled here). *)
From Coq Require Import Permutation.
From Verif Require Import Num NumFacts Arr ArrFacts Spec SpecRun SpecForest MinSum P_Ksat P_Tsp_Sched P_Tsp_Order.
From Verif Require Import M_Tsp_Run P_Ksat_Py P_PyRef_Ksat P_Forest P_Forest_Limit P_Ksat_Tree P_Assign.
Local Open Scope nat_scope.

Lemma perm_lt f n : Permutation (map f (seq 0 n)) (seq 0 n) -> forall x, x < n -> f x < n.
Proof.
  intros P x Hx. assert (I : In (f x) (seq 0 n)) by (apply (Permutation_in _ P), in_map, in_seq; lia).
  apply in_seq in I. lia.
Qed.
Lemma perm_onto f n : Permutation (map f (seq 0 n)) (seq 0 n) -> forall y, y < n -> exists x, x < n /\ f x = y.
Proof.
  intros P y Hy. assert (I : In y (map f (seq 0 n))) by (apply (Permutation_in _ (Permutation_sym P)), in_seq; lia).
  apply in_map_iff in I as (x & <- & I). apply in_seq in I. exists x. split; [lia|reflexivity].
Qed.
Lemma perm_inj f n : Permutation (map f (seq 0 n)) (seq 0 n) -> forall x y, x < n -> y < n -> f x = f y -> x = y.
Proof.
  intros P x y Hx Hy E. assert (N : NoDup (map f (seq 0 n))) by (eapply Permutation_NoDup; [apply Permutation_sym, P|apply seq_NoDup]).
  apply (proj1 (NoDup_nth _ (f 0)) N); rewrite ?map_length, ?seq_length; auto.
  rewrite !map_nth, !seq_nth by auto. exact E.
Qed.
Lemma qsum_scale {A} c (f : A -> Qc) l : qsum (map (fun x => c * f x)%Qc l) = (c * qsum (map f l))%Qc.
Proof. induction l as [|x l IH]; cbn [map]; [change (qsum []) with 0%Qc; ring|]. rewrite !qsum_cons, IH. ring. Qed.

Section Sym.
Variables (nv : nat) (fv : nat -> nat) (fl : nat -> bool) (s : Qc).
Hypothesis Pv : Permutation (map fv (seq 0 nv)) (seq 0 nv).
Hypothesis Hs : (0 < s)%Qc.

Definition sgn (x : nat) : Qc := if fl x then (- s)%Qc else s.
(** corresponding assignments *)
Definition corr (a a' : nat -> bool) : Prop := forall x, x < nv -> a' x = xorb (fl x) (a (fv x)).

Lemma corr_back a' : exists a, corr a a'.
Proof.
  set (inv := fun y => match find (fun x => fv x =? y) (seq 0 nv) with Some x => x | None => 0 end).
  exists (fun y => xorb (fl (inv y)) (a' (inv y))). intros x Hx.
  assert (E : inv (fv x) = x).
  { unfold inv. destruct (find (fun z => fv z =? fv x) (seq 0 nv)) as [z|] eqn:F.
    - apply find_some in F as (I & F). apply in_seq in I. apply Nat.eqb_eq in F. apply (perm_inj fv nv Pv); auto; lia.
    - assert (I : In x (seq 0 nv)) by (apply in_seq; lia). pose proof (find_none _ _ F x I) as X.
      apply Nat.eqb_neq in X. congruence. }
  rewrite E. destruct (fl x), (a' x); reflexivity.
Qed.

Lemma fsum_sym f f' nu nu' :
  (forall x, x < nv -> f' x = f (fv x)) ->
  (forall x, x < nv -> f' x = true -> nu' x = (sgn x * nu (fv x))%Qc) ->
  exists K, forall a a', corr a a' -> fsum (seq 0 nv) f' nu' a' = (s * fsum (seq 0 nv) f nu a - K)%Qc.
Proof.
  intros Hf Hn. exists (qsum (map (fun x => if f' x && fl x then s * nu (fv x) else 0)%Qc (seq 0 nv))).
  intros a a' Ha. unfold fsum.
  assert (E : qsum (map (fun u => if f u && a u then nu u else 0%Qc) (seq 0 nv))
            = qsum (map (fun x => if f (fv x) && a (fv x) then nu (fv x) else 0%Qc) (seq 0 nv))).
  { rewrite <- (map_map fv (fun u => if f u && a u then nu u else 0%Qc)). apply qsum_perm, Permutation_map, Permutation_sym, Pv. }
  rewrite E, <- qsum_scale.
  assert (X : forall l, (forall x, In x l -> x < nv) ->
    (qsum (map (fun u => if f' u && a' u then nu' u else 0) l) =
     qsum (map (fun x => s * (if f (fv x) && a (fv x) then nu (fv x) else 0)) l) -
     qsum (map (fun x => if f' x && fl x then s * nu (fv x) else 0) l))%Qc).
  { induction l as [|x l IH]; intros B; cbn [map]; [change (qsum []) with 0%Qc; ring|].
    rewrite !qsum_cons, IH by (intros; apply B; now right).
    assert (Bx : x < nv) by (apply B; now left). rewrite (Ha x Bx), <- (Hf x Bx).
    destruct (f' x) eqn:Ef; cbn [andb]; [|ring]. rewrite (Hn x Bx Ef). unfold sgn.
    destruct (fl x), (a (fv x)); cbn [xorb]; ring. }
  apply X. intros x I. apply in_seq in I. lia.
Qed.

Variables (P P' : (nat -> bool) -> Prop) (f f' : nat -> bool) (nu nu' : nat -> Qc).
Hypothesis HP : forall a a', corr a a' -> (P' a' <-> P a).
Hypothesis Hf : forall x, x < nv -> f' x = f (fv x).
Hypothesis Hn : forall x, x < nv -> f' x = true -> nu' x = (sgn x * nu (fv x))%Qc.

Lemma msg_sym v d : v < nv -> msg (seq 0 nv) P f nu (fv v) d -> msg (seq 0 nv) P' f' nu' v (sgn v * d)%Qc.
Proof.
  intros Hv (q1 & q0 & B1 & B0 & ->). destruct (fsum_sym f f' nu nu' Hf Hn) as (K & HK).
  assert (B : forall b q, bst (seq 0 nv) P f nu (fv v) b q -> bst (seq 0 nv) P' f' nu' v (xorb (fl v) b) (s * q - K)%Qc).
  { intros b q ((a & A1 & A2 & ->) & A4). split.
    - set (a' := fun x => xorb (fl x) (a (fv x))). assert (C : corr a a') by (intros x _; reflexivity).
      exists a'. split; [apply (HP a a' C), A1|]. split; [unfold a'; rewrite A2; reflexivity|]. symmetry. apply HK, C.
    - intros a' C1 C2. destruct (corr_back a') as (c & C). rewrite (HK c a' C).
      assert (X : (fsum (seq 0 nv) f nu a <= fsum (seq 0 nv) f nu c)%Qc).
      { apply A4; [apply (HP c a' C), C1|]. rewrite (C v Hv) in C2. destruct (fl v), (c (fv v)), b; cbn in C2; congruence. }
      pose proof (mul_mono _ _ s X (Qclt_le_weak _ _ Hs)). qlra. }
  apply B in B1. apply B in B0. unfold sgn. destruct (fl v); cbn [xorb] in *.
  - exists (s * q0 - K)%Qc, (s * q1 - K)%Qc. split; [exact B0|split; [exact B1|]]. ring.
  - exists (s * q1 - K)%Qc, (s * q0 - K)%Qc. split; [exact B1|split; [exact B0|]]. ring.
Qed.
End Sym.

Lemma NoDup_map_inj {A B} (f : A -> B) l :
  (forall x y, In x l -> In y l -> f x = f y -> x = y) -> NoDup l -> NoDup (map f l).
Proof.
  induction l as [|x l IH]; intros H N; cbn [map]; [constructor|]. inversion_clear N as [|? ? Nx Nl].
  constructor.
  - intros I. apply in_map_iff in I as (y & E & I). apply Nx. rewrite (H x y); [exact I|now left|now right|congruence].
  - apply IH; [|exact Nl]. intros y z Iy Iz. apply H; now right.
Qed.

Lemma others_perm nc fc c : Permutation (map fc (seq 0 nc)) (seq 0 nc) -> c < nc ->
  Permutation (map fc (others c (seq 0 nc))) (others (fc c) (seq 0 nc)).
Proof.
  intros P Hc. apply NoDup_Permutation.
  - apply NoDup_map_inj; [|apply NoDup_filter, seq_NoDup].
    intros x y Hx Hy. apply others_In in Hx as (Hx & _). apply others_In in Hy as (Hy & _).
    apply in_seq in Hx, Hy. apply (perm_inj fc nc P); lia.
  - apply NoDup_filter, seq_NoDup.
  - intros y. rewrite in_map_iff. unfold others. setoid_rewrite filter_In. setoid_rewrite in_seq.
    setoid_rewrite negb_true_iff. setoid_rewrite Nat.eqb_neq. split.
    + intros (x & <- & Hx & Nx). split; [pose proof (perm_lt fc nc P x); lia|].
      intros E. apply Nx. apply (perm_inj fc nc P); auto; lia.
    + intros (Hy & Ny). destruct (perm_onto fc nc P y) as (x & Hx & <-); [lia|].
      exists x. split; [reflexivity|]. split; [lia|]. congruence.
Qed.

(** corresponding schedules *)
Lemma fsched_sym nv nc fv fl fc s cx cx' ok ok' a V R D V' R' D' mu mu' :
  Permutation (map fv (seq 0 nv)) (seq 0 nv) -> Permutation (map fc (seq 0 nc)) (seq 0 nc) -> (0 < s)%Qc ->
  (forall c x, c < nc -> x < nv -> In x (cx' c) <-> In (fv x) (cx (fc c))) ->
  (forall c x, In x (cx c) -> x < nv) -> (forall c x, In x (cx' c) -> x < nv) ->
  (forall c a a', c < nc -> corr nv fv fl a a' -> (ok' c a' <-> ok (fc c) a)) ->
  fsched (seq 0 nv) cx ok (seq 0 nc) a V R D mu -> fsched (seq 0 nv) cx' ok' (seq 0 nc) a V' R' D' mu' ->
  (forall c x, c < nc -> In x (cx' c) -> mu' x = (sgn fl s x * mu (fv x))%Qc) ->
  (forall c x, c < nc -> In x (cx' c) -> V' 0 c x = (sgn fl s x * V 0%nat (fc c) (fv x))%Qc) ->
  forall t c x, c < nc -> x < nv -> D' t c x = (sgn fl s x * D t (fc c) (fv x))%Qc.
Proof.
  intros Pv Pc Hs Hcx B B' Hok F F' Hmu H0.
  assert (Ic : forall c, In c (seq 0 nc) <-> c < nc) by (intros; rewrite in_seq; lia).
  assert (Lc : forall c, c < nc -> fc c < nc) by (apply perm_lt; auto).
  assert (Lv : forall x, x < nv -> fv x < nv) by (apply perm_lt; auto).
  assert (I1 : forall c, c < nc -> In c (seq 0 nc)) by (intros; apply Ic; auto).
  assert (I2 : forall c, c < nc -> In (fc c) (seq 0 nc)) by (intros; apply Ic; auto).
  assert (I3 : forall c x, c < nc -> In x (cx' c) -> In (fv x) (cx (fc c))) by (intros c x Hc Hx; apply Hcx; eauto).
  assert (St : forall t, (forall c x, c < nc -> In x (cx' c) -> V' t c x = (sgn fl s x * V t (fc c) (fv x))%Qc) ->
     forall c x, c < nc -> In x (cx' c) -> R' t c x = (sgn fl s x * R t (fc c) (fv x))%Qc).
  { intros t E c x Hc Hx. pose proof (B' c x Hx) as Bx.
    eapply msg_unique; [apply (f_raw _ _ _ _ _ _ _ _ _ F'); [apply Ic; auto|auto]|].
    apply (msg_sym nv fv fl s Pv Hs (ok (fc c)) (ok' c) (inb cx (fc c) (fv x)) (inb cx' c x) (V t (fc c)) (V' t c)).
    - intros a0 a1. apply Hok, Hc.
    - intros y Hy. unfold inb. f_equal.
      + destruct (mem y (cx' c)) eqn:M1, (mem (fv y) (cx (fc c))) eqn:M2; try reflexivity; exfalso.
        * apply mem_In in M1. apply mem_not_In in M2. apply M2, Hcx; auto.
        * apply mem_In in M2. apply mem_not_In in M1. apply M1, Hcx; auto.
      + f_equal. destruct (Nat.eqb_spec y x) as [->|N]; [rewrite Nat.eqb_refl; reflexivity|].
        destruct (Nat.eqb_spec (fv y) (fv x)) as [E'|]; [|reflexivity]. exfalso. apply N. apply (perm_inj fv nv Pv); auto.
    - intros y Hy Iy. unfold inb in Iy. apply andb_true_iff in Iy as (Iy & _). apply mem_In in Iy. apply E; auto.
    - exact Bx.
    - apply (f_raw _ _ _ _ _ _ _ _ _ F); [apply Ic; auto|apply Hcx; auto]. }
  assert (G : forall t, (forall c x, c < nc -> In x (cx' c) -> V' t c x = (sgn fl s x * V t (fc c) (fv x))%Qc) /\
                        (forall c x, c < nc -> x < nv -> D' t c x = (sgn fl s x * D t (fc c) (fv x))%Qc)).
  { assert (Of : forall t c x, c < nc -> x < nv -> (In x (cx' c) -> D' t c x = (sgn fl s x * D t (fc c) (fv x))%Qc) ->
       D' t c x = (sgn fl s x * D t (fc c) (fv x))%Qc).
    { intros t c x Hc Hx X. destruct (in_dec Nat.eq_dec x (cx' c)) as [I|I]; [auto|].
      rewrite (f_off _ _ _ _ _ _ _ _ _ F') by auto.
      rewrite (f_off _ _ _ _ _ _ _ _ _ F); [ring|apply Ic; auto|]. intros J. apply I, Hcx; auto. }
    induction t as [|t (IV & ID)].
    - split; [exact H0|]. intros c x Hc Hx. apply Of; auto. intros I.
      rewrite (f_first _ _ _ _ _ _ _ _ _ F'), (f_first _ _ _ _ _ _ _ _ _ F), (St 0 H0 c x) by auto.
      ring.
    - rewrite <- Nat.add_1_r.
      assert (EV : forall c x, c < nc -> In x (cx' c) -> V' (t + 1) c x = (sgn fl s x * V (t + 1)%nat (fc c) (fv x))%Qc).
      { intros c x Hc I. pose proof (B' c x I) as Bx.
        rewrite (f_in _ _ _ _ _ _ _ _ _ F'), (f_in _ _ _ _ _ _ _ _ _ F), (Hmu c x) by auto.
        assert (X : qsum (map (fun c' => D' t c' x) (others c (seq 0 nc))) =
          (sgn fl s x * qsum (map (fun c' => D t c' (fv x)) (others (fc c) (seq 0 nc))))%Qc).
        { rewrite <- (qsum_perm _ _ (Permutation_map (fun c' => D t c' (fv x)) (others_perm nc fc c Pc Hc))).
          rewrite map_map, <- qsum_scale. f_equal. apply map_ext_in. intros c' Hc'. apply others_In in Hc' as (Hc' & _).
          apply Ic in Hc'. apply ID; auto. }
        rewrite X. ring. }
      split; [exact EV|]. intros c x Hc Hx. apply Of; auto. intros I.
      rewrite (f_next _ _ _ _ _ _ _ _ _ F'), (f_next _ _ _ _ _ _ _ _ _ F), (St _ EV c x), ID by auto.
      ring. }
  intros t. apply (G t).
Qed.
