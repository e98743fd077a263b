(** * K-SAT schedules on formulas that look alike (no code is modelled here). *)
From Coq Require Import Permutation.
From Verif Require Import Num NumFacts Arr ArrFacts Spec SpecRun SpecForest SpecView MinSum P_Ksat P_Tsp_Sched P_Tsp_Order.
From Verif Require Import M_Tsp_Run P_Ksat_Py P_PyRef_Ksat P_Forest P_Forest_Limit P_Ksat_Tree.
Local Open Scope nat_scope.

Definition row (f : weighted) (c : nat) : list nat := nth c (w_conx f) [].
Definition holds (f : weighted) (c : nat) : (nat -> bool) -> Prop := clause_at (w_conx f) (w_types f) c.
(** clauses of distinct variables below [nv], one type for each *)
Definition sound (nv : nat) (f : weighted) : Prop :=
  forall c, NoDup (row f c) /\ (forall u, In u (row f c) -> u < nv) /\ length (nth c (w_types f) []) = length (row f c).

Lemma holds_occurs f c a : holds f c a <-> exists x t, occurs f c x t /\ a x = (t =? 1)%Z.
Proof.
  unfold holds, clause_at, clause_ok, signs, occurs. split.
  - intros (j & s & b & J1 & J2 & E). rewrite nth_error_map in J1, J2.
    destruct (nth_error (nth c (w_types f) []) j) as [t|] eqn:Et; [|discriminate].
    destruct (nth_error (nth c (w_conx f) []) j) as [x|] eqn:Ex; [|discriminate]. cbn in J1, J2.
    exists x, t. split; [exists j; auto|congruence].
  - intros (x & t & (j & J1 & J2) & E). exists j, (t =? 1)%Z, (a x). rewrite !nth_error_map, J1, J2. auto.
Qed.
Lemma occurs_row f c x t : occurs f c x t -> In x (row f c).
Proof. intros (j & J & _). eapply nth_error_In; eauto. Qed.
Lemma row_occurs nv f c x : sound nv f -> In x (row f c) -> exists t, occurs f c x t.
Proof.
  intros S I. apply In_nth_error in I as (j & J). destruct (nth_error (nth c (w_types f) []) j) as [t|] eqn:Et; [exists t, j; auto|].
  apply nth_error_None in Et. destruct (S c) as (_ & _ & L). assert (j < length (row f c)) by (apply nth_error_Some; congruence). lia.
Qed.
Lemma others_iff c c' l : In c' (others c l) <-> In c' l /\ c' <> c.
Proof. unfold others. rewrite filter_In, negb_true_iff, Nat.eqb_neq. tauto. Qed.
Lemma clauses_with_iff f x c : In c (clauses_with f x) <-> c < length (w_conx f) /\ In x (row f c).
Proof.
  unfold clauses_with, row. rewrite filter_In, in_seq, existsb_exists. split.
  - intros (H & y & I & E). apply Nat.eqb_eq in E. subst y. split; [lia|exact I].
  - intros (H & I). split; [lia|]. exists x. split; auto. apply Nat.eqb_refl.
Qed.
Lemma row_clauses f x c : In x (row f c) -> In c (clauses_with f x).
Proof.
  intros I. apply clauses_with_iff. split; [|exact I]. destruct (Nat.lt_ge_cases c (length (w_conx f))) as [|G]; auto.
  unfold row in I. rewrite nth_overflow in I by exact G. destruct I.
Qed.
Lemma clauses_with_NoDup f x : NoDup (clauses_with f x).
Proof. apply NoDup_filter, seq_NoDup. Qed.

Lemma fsum_row nv f c v nu a : sound nv f ->
  fsum (seq 0 nv) (inb (row f) c v) nu a = qsum (map (fun u => if a u then nu u else 0%Qc) (others v (row f c))).
Proof.
  intros S. destruct (S c) as (N & B & _). unfold fsum. rewrite (qsum_outside _ nv (others v (row f c))).
  - f_equal. apply map_ext_in. intros u Hu. apply others_iff in Hu as (I & Ne). unfold inb.
    rewrite (proj2 (mem_In _ _) I). apply Nat.eqb_neq in Ne. rewrite Ne. reflexivity.
  - apply NoDup_filter, N.
  - intros u Hu. apply others_iff in Hu as (I & _). auto.
  - intros u _ Hu. unfold inb. destruct (mem u (row f c)) eqn:M; [|reflexivity]. destruct (Nat.eqb_spec u v); [reflexivity|].
    exfalso. apply Hu, others_iff. split; [now apply mem_In|auto].
Qed.

(** ** One clause *)
Section Two.
Variables (nv nw : nat) (f g : weighted).
Hypothesis Sf : sound nv f.
Hypothesis Sg : sound nw g.

Lemma transfer c v d x nu nu' M a :
  In v (row f c) -> In x (row g d) -> same_type f g c v d x ->
  Permutation (map fst M) (others v (row f c)) -> Permutation (map snd M) (others x (row g d)) ->
  Forall (fun p => same_type f g c (fst p) d (snd p) /\ nu (fst p) = nu' (snd p)) M ->
  holds f c a ->
  exists a', holds g d a' /\ a' x = a v /\ fsum (seq 0 nw) (inb (row g) d x) nu' a' = fsum (seq 0 nv) (inb (row f) c v) nu a.
Proof.
  intros Iv Ix Sv P1 P2 FM H. rewrite Forall_forall in FM.
  set (a' := fun y => if y =? x then a v else match find (fun p => snd p =? y) M with Some p => a (fst p) | None => false end).
  assert (Nm : NoDup (map snd M)) by (eapply Permutation_NoDup; [apply Permutation_sym, P2|apply NoDup_filter, Sg]).
  assert (Ex : a' x = a v) by (unfold a'; now rewrite Nat.eqb_refl).
  assert (Ep : forall p, In p M -> a' (snd p) = a (fst p)).
  { intros p Ip. assert (I : In (snd p) (others x (row g d))) by (apply (Permutation_in _ P2), in_map, Ip).
    apply others_iff in I as (_ & Ne). unfold a'. apply Nat.eqb_neq in Ne. rewrite Ne.
    destruct (find (fun q => snd q =? snd p) M) as [q|] eqn:F.
    - apply find_some in F as (Iq & Q). apply Nat.eqb_eq in Q. f_equal. f_equal.
      clear -Nm Ip Iq Q. induction M as [|m M IH]; [destruct Ip|]. cbn [map] in Nm. inversion_clear Nm as [|? ? N1 N2].
      destruct Ip as [->|Ip], Iq as [->|Iq]; auto.
      + exfalso. apply N1. rewrite <- Q. now apply in_map.
      + exfalso. apply N1. rewrite Q. now apply in_map.
    - pose proof (find_none _ _ F p Ip) as Q. cbn in Q. rewrite Nat.eqb_refl in Q. discriminate. }
  exists a'. split; [|split; [exact Ex|]].
  - apply holds_occurs in H as (u & t & O & E). apply holds_occurs. destruct (Nat.eq_dec u v) as [->|Ne].
    + exists x, t. split; [now apply Sv|congruence].
    + assert (I : In u (map fst M)) by (apply (Permutation_in _ (Permutation_sym P1)), others_iff; split; [eapply occurs_row; eauto|auto]).
      apply in_map_iff in I as (p & <- & Ip). exists (snd p), t. split; [apply (FM p Ip); exact O|]. rewrite Ep by auto. exact E.
  - rewrite (fsum_row nw g), (fsum_row nv f) by auto.
    rewrite <- (qsum_perm _ _ (Permutation_map _ P1)), <- (qsum_perm _ _ (Permutation_map _ P2)), !map_map. f_equal. apply map_ext_in.
    intros p Ip. rewrite Ep by auto. destruct (FM p Ip) as (_ & ->). reflexivity.
Qed.
End Two.

Lemma same_type_sym f g c v d x : same_type f g c v d x -> same_type g f d x c v.
Proof. intros H t. symmetry. apply H. Qed.

Lemma lmsg_alike nv nw f g c v d x nu nu' M q : sound nv f -> sound nw g ->
  In v (row f c) -> In x (row g d) -> same_type f g c v d x ->
  Permutation (map fst M) (others v (row f c)) -> Permutation (map snd M) (others x (row g d)) ->
  Forall (fun p => same_type f g c (fst p) d (snd p) /\ nu (fst p) = nu' (snd p)) M ->
  lmsg (seq 0 nv) (row f) (holds f) c nu v q -> lmsg (seq 0 nw) (row g) (holds g) d nu' x q.
Proof.
  intros Sf Sg Iv Ix Sv P1 P2 FM.
  set (M' := map (fun p => (snd p, fst p)) M).
  assert (P1' : Permutation (map fst M') (others x (row g d))) by (unfold M'; rewrite map_map; exact P2).
  assert (P2' : Permutation (map snd M') (others v (row f c))) by (unfold M'; rewrite map_map; exact P1).
  assert (FM' : Forall (fun p => same_type g f d (fst p) c (snd p) /\ nu' (fst p) = nu (snd p)) M').
  { unfold M'. apply Forall_map. eapply Forall_impl; [|exact FM]. intros p (A & B). cbn [fst snd]. split; [now apply same_type_sym|auto]. }
  assert (B : forall b r, bst (seq 0 nv) (holds f c) (inb (row f) c v) nu v b r -> bst (seq 0 nw) (holds g d) (inb (row g) d x) nu' x b r).
  { intros b r ((a & A1 & A2 & A3) & A4). split.
    - destruct (transfer nv nw f g Sf Sg c v d x nu nu' M a) as (a' & H1 & H2 & H3); auto. exists a'. split; [auto|]. split; [congruence|]. rewrite H3. auto.
    - intros a' C1 C2. destruct (transfer nw nv g f Sg Sf d x c v nu' nu M' a') as (a0 & H1 & H2 & H3); auto using same_type_sym.
      rewrite <- H3. apply A4; [auto|congruence]. }
  intros (q1 & q0 & B1 & B0 & ->). exists q1, q0. split; [now apply B|]. split; [now apply B|reflexivity].
Qed.

(** ** Whole schedules *)
Lemma branch_less f g n : forall c v d x, branch f g (S n) c v d x -> branch f g n c v d x.
Proof.
  induction n as [|n IH]; intros c v d x (E & L & P1 & P2 & FL); [split; [exact E|exact I]|].
  split; [exact E|]. exists L. split; [exact P1|]. split; [exact P2|]. eapply Forall_impl; [|exact FL].
  intros p (St & M & Q1 & Q2 & FM). split; [exact St|]. exists M. split; [exact Q1|]. split; [exact Q2|].
  eapply Forall_impl; [|exact FM]. intros q (A & B). split; [exact A|]. apply IH, B.
Qed.
Lemma clause_alike_less f g n c v d x : clause_alike f g (branch f g (S n)) c v d x -> clause_alike f g (branch f g n) c v d x.
Proof.
  intros (St & M & Q1 & Q2 & FM). split; [exact St|]. exists M. split; [exact Q1|]. split; [exact Q2|].
  eapply Forall_impl; [|exact FM]. intros q (A & B). split; [exact A|]. apply branch_less, B.
Qed.

Lemma sum_clauses f (D : nat -> nat -> Qc) v c : (forall c', c' < length (w_conx f) -> ~ In v (row f c') -> D c' v = 0%Qc) ->
  qsum (map (fun c' => D c' v) (others c (seq 0 (length (w_conx f))))) = qsum (map (fun c' => D c' v) (others c (clauses_with f v))).
Proof.
  intros Z. rewrite (qsum_filter_zero _ (fun c' => existsb (Nat.eqb v) (row f c')) (others c (seq 0 (length (w_conx f))))).
  - f_equal. f_equal. unfold others, clauses_with, row. induction (seq 0 (length (w_conx f))) as [|y l IH]; [reflexivity|]. cbn [filter].
    destruct (negb (y =? c)) eqn:E1; destruct (existsb (Nat.eqb v) (nth y (w_conx f) [])) eqn:E2; cbn [filter]; rewrite ?E1, ?E2, IH; reflexivity.
  - intros y Iy E. apply others_iff in Iy as (Iy & _). apply in_seq in Iy. apply Z; [lia|]. intros I. assert (X : existsb (Nat.eqb v) (row f y) = true); [|congruence].
    apply existsb_exists. exists v. split; auto. apply Nat.eqb_refl.
Qed.
Lemma sum_all_clauses f (D : nat -> nat -> Qc) v : (forall c', c' < length (w_conx f) -> ~ In v (row f c') -> D c' v = 0%Qc) ->
  qsum (map (fun c' => D c' v) (seq 0 (length (w_conx f)))) = qsum (map (fun c' => D c' v) (clauses_with f v)).
Proof.
  intros Z. unfold clauses_with. apply qsum_filter_zero. intros y Iy E. apply in_seq in Iy. apply Z; [lia|]. intros I.
  assert (X : existsb (Nat.eqb v) (row f y) = true); [|unfold row in X; congruence]. apply existsb_exists. exists v. split; auto. apply Nat.eqb_refl.
Qed.

Section Runs.
Variables (nv nw : nat) (f g : weighted) (a : Qc).
Hypothesis Sf : sound nv f.
Hypothesis Sg : sound nw g.
Variables V R D V' R' D' : nat -> nat -> nat -> Qc.
Let nc := length (w_conx f).
Let nd := length (w_conx g).
Hypothesis F : fsched (seq 0 nv) (row f) (holds f) (seq 0 nc) a V R D (fun u => nth u (w_costs f) 0%Qc).
Hypothesis G : fsched (seq 0 nw) (row g) (holds g) (seq 0 nd) a V' R' D' (fun u => nth u (w_costs g) 0%Qc).
Hypothesis V0 : forall c v, In v (row f c) -> V 0 c v = nth v (w_costs f) 0%Qc.
Hypothesis V0' : forall c v, In v (row g c) -> V' 0 c v = nth v (w_costs g) 0%Qc.

Lemma Z t c v : c < length (w_conx f) -> ~ In v (row f c) -> D t c v = 0%Qc.
Proof. intros H. apply (f_off _ _ _ _ _ _ _ _ _ F). apply in_seq. unfold nc. lia. Qed.
Lemma Z' t c v : c < length (w_conx g) -> ~ In v (row g c) -> D' t c v = 0%Qc.
Proof. intros H. apply (f_off _ _ _ _ _ _ _ _ _ G). apply in_seq. unfold nd. lia. Qed.
Lemma in_nc c v : In v (row f c) -> In c (seq 0 nc).
Proof. intros I. apply row_clauses, clauses_with_iff in I as (H & _). apply in_seq. unfold nc. lia. Qed.
Lemma in_nd c v : In v (row g c) -> In c (seq 0 nd).
Proof. intros I. apply row_clauses, clauses_with_iff in I as (H & _). apply in_seq. unfold nd. lia. Qed.

Lemma raw_alike t c v d x :
  (forall c v d x, In v (row f c) -> In x (row g d) -> branch f g t c v d x -> V t c v = V' t d x) ->
  In v (row f c) -> In x (row g d) -> clause_alike f g (branch f g t) c v d x -> R t c v = R' t d x.
Proof.
  intros H Iv Ix (St & M & P1 & P2 & FM).
  eapply (msg_unique (seq 0 nw)); [|apply (f_raw _ _ _ _ _ _ _ _ _ G); [eapply in_nd; eauto|exact Ix]].
  apply (lmsg_alike nv nw f g c v d x (V t c) (V' t d) M); auto.
  - rewrite Forall_forall in FM |- *. intros p Ip. destruct (FM p Ip) as (A & B). split; [exact A|].
    assert (I1 : In (fst p) (others v (row f c))) by (apply (Permutation_in _ P1), in_map, Ip).
    assert (I2 : In (snd p) (others x (row g d))) by (apply (Permutation_in _ P2), in_map, Ip).
    apply others_iff in I1 as (I1 & _). apply others_iff in I2 as (I2 & _). apply H; auto.
  - apply (f_raw _ _ _ _ _ _ _ _ _ F); [eapply in_nc; eauto|exact Iv].
Qed.

Lemma runs_alike t :
  (forall c v d x, In v (row f c) -> In x (row g d) -> branch f g t c v d x -> V t c v = V' t d x) /\
  (forall c v d x, In v (row f c) -> In x (row g d) -> clause_alike f g (branch f g t) c v d x -> D t c v = D' t d x).
Proof.
  induction t as [|t (IV & ID)].
  - assert (H : forall c v d x, In v (row f c) -> In x (row g d) -> branch f g 0 c v d x -> V 0 c v = V' 0 d x).
    { intros c v d x Iv Ix (E & _). rewrite V0, V0' by auto. exact E. }
    split; [exact H|]. intros c v d x Iv Ix A.
    rewrite (f_first _ _ _ _ _ _ _ _ _ F), (f_first _ _ _ _ _ _ _ _ _ G), (raw_alike 0 c v d x H Iv Ix A) by (eauto using in_nc, in_nd). reflexivity.
  - assert (H : forall c v d x, In v (row f c) -> In x (row g d) -> branch f g (S t) c v d x -> V (S t) c v = V' (S t) d x).
    { intros c v d x Iv Ix (E & L & P1 & P2 & FL). rewrite <- Nat.add_1_r.
      rewrite (f_in _ _ _ _ _ _ _ _ _ F), (f_in _ _ _ _ _ _ _ _ _ G), E by (eauto using in_nc, in_nd). f_equal.
      unfold nc, nd. rewrite (sum_clauses f (D t)), (sum_clauses g (D' t)) by (auto using Z, Z').
      rewrite <- (qsum_perm _ _ (Permutation_map _ P1)), <- (qsum_perm _ _ (Permutation_map _ P2)), !map_map. f_equal. apply map_ext_in.
      intros p Ip. rewrite Forall_forall in FL.
      assert (I1 : In (fst p) (others c (clauses_with f v))) by (apply (Permutation_in _ P1), in_map, Ip).
      assert (I2 : In (snd p) (others d (clauses_with g x))) by (apply (Permutation_in _ P2), in_map, Ip).
      apply others_iff in I1 as (I1 & _). apply others_iff in I2 as (I2 & _). apply clauses_with_iff in I1, I2. apply ID; [tauto|tauto|]. apply FL, Ip. }
    split; [exact H|]. intros c v d x Iv Ix A. pose proof (ID c v d x Iv Ix (clause_alike_less _ _ _ _ _ _ _ A)) as E. rewrite <- Nat.add_1_r in *.
    rewrite (f_next _ _ _ _ _ _ _ _ _ F), (f_next _ _ _ _ _ _ _ _ _ G), E by (eauto using in_nc, in_nd).
    rewrite Nat.add_1_r in *. rewrite (raw_alike (S t) c v d x H Iv Ix A). reflexivity.
Qed.

Lemma outputs_alike t v x : looks_like f g t v x ->
  qsum (map (fun c => D t c v) (seq 0 nc)) = qsum (map (fun c => D' t c x) (seq 0 nd)).
Proof.
  intros (L & P1 & P2 & FL). unfold nc, nd. rewrite (sum_all_clauses f (D t)), (sum_all_clauses g (D' t)) by (auto using Z, Z').
  rewrite <- (qsum_perm _ _ (Permutation_map _ P1)), <- (qsum_perm _ _ (Permutation_map _ P2)), !map_map. f_equal. apply map_ext_in.
  intros p Ip. rewrite Forall_forall in FL.
  assert (I1 : In (fst p) (clauses_with f v)) by (apply (Permutation_in _ P1), in_map, Ip).
  assert (I2 : In (snd p) (clauses_with g x)) by (apply (Permutation_in _ P2), in_map, Ip).
  apply clauses_with_iff in I1, I2. apply runs_alike; [tauto|tauto|]. apply FL, Ip.
Qed.
End Runs.

(** ** A formula that ends *)
Section Ends.
Variables (nv : nat) (f : weighted).
Variables V R D : nat -> nat -> nat -> Qc.
Let nc := length (w_conx f).
Hypothesis F : fsched (seq 0 nv) (row f) (holds f) (seq 0 nc) 0%Qc V R D (fun u => nth u (w_costs f) 0%Qc).
Hypothesis V0 : forall c v, In v (row f c) -> V 0 c v = nth v (w_costs f) 0%Qc.

Lemma Z0 t c v : c < length (w_conx f) -> ~ In v (row f c) -> D t c v = 0%Qc.
Proof. intros H. apply (f_off _ _ _ _ _ _ _ _ _ F). apply in_seq. unfold nc. lia. Qed.
Lemma D_is_R t c v : In v (row f c) -> D t c v = R t c v.
Proof.
  intros I. pose proof (row_clauses f v c I) as Ic. apply clauses_with_iff in Ic as (Ic & _).
  destruct t as [|t]; [rewrite (f_first _ _ _ _ _ _ _ _ _ F) by (auto; apply in_seq; unfold nc; lia); ring|].
  rewrite <- Nat.add_1_r, (f_next _ _ _ _ _ _ _ _ _ F) by (auto; apply in_seq; unfold nc; lia). ring.
Qed.
Lemma raw_same t s c v : In v (row f c) -> (forall w, In w (others v (row f c)) -> V t c w = V s c w) -> R t c v = R s c v.
Proof.
  intros I H. pose proof (row_clauses f v c I) as Ic. apply clauses_with_iff in Ic as (Ic & _).
  assert (Is : In c (seq 0 nc)) by (apply in_seq; unfold nc; lia).
  eapply (msg_unique (seq 0 nv)); [apply (f_raw _ _ _ _ _ _ _ _ _ F); [exact Is|exact I]|].
  eapply lmsg_ext; [exact I| |apply (f_raw _ _ _ _ _ _ _ _ _ F); [exact Is|exact I]].
  intros u Iu Nu. symmetry. apply H, others_iff. auto.
Qed.
Lemma ends_settled n : forall c v t, In v (row f c) -> ends f n c v -> n <= t -> V t c v = V n c v.
Proof.
  induction n as [|n IH]; intros c v t I E Ht.
  - destruct t as [|t]; [reflexivity|]. pose proof (row_clauses f v c I) as Ic. apply clauses_with_iff in Ic as (Ic & _).
    rewrite <- Nat.add_1_r, (f_in _ _ _ _ _ _ _ _ _ F) by (auto; apply in_seq; unfold nc; lia).
    unfold nc. rewrite (sum_clauses f (D t)) by (auto using Z0). cbn [ends] in E. rewrite E, V0 by auto. change (qsum (map (fun c' => D t c' v) [])) with 0%Qc. ring.
  - destruct t as [|t]; [lia|]. pose proof (row_clauses f v c I) as Ic. apply clauses_with_iff in Ic as (Ic & _).
    rewrite <- (Nat.add_1_r t), <- (Nat.add_1_r n). rewrite !(f_in _ _ _ _ _ _ _ _ _ F) by (auto; apply in_seq; unfold nc; lia). f_equal.
    unfold nc. rewrite (sum_clauses f (D t)), (sum_clauses f (D n)) by (auto using Z0). f_equal. apply map_ext_in. intros c' Hc'.
    assert (Iv : In v (row f c')) by (apply others_iff in Hc' as (Hc' & _); apply clauses_with_iff in Hc'; tauto).
    rewrite !D_is_R by auto. apply raw_same; [auto|]. intros w Hw. apply IH; [apply others_iff in Hw; tauto| |lia]. apply (E c' w Hc' Hw).
Qed.
Lemma ends_output n x t : ends_within f n x -> n <= t ->
  qsum (map (fun c => D t c x) (seq 0 nc)) = qsum (map (fun c => D n c x) (seq 0 nc)).
Proof.
  intros E Ht. unfold nc. rewrite !(sum_all_clauses f (D _)) by (auto using Z0). f_equal. apply map_ext_in. intros c Hc.
  pose proof Hc as Hc'. apply clauses_with_iff in Hc' as (_ & I). rewrite !D_is_R by auto. apply raw_same; [auto|].
  intros w Hw. apply ends_settled; [apply others_iff in Hw; tauto| |auto]. apply (E c w Hc Hw).
Qed.
End Ends.

(** ** Formulas that agree near a variable *)
Lemma type_unique nv f c x t t' : sound nv f -> occurs f c x t -> occurs f c x t' -> t = t'.
Proof.
  intros S (j & J1 & J2) (i & I1 & I2). destruct (S c) as (N & _). unfold row in N.
  assert (i = j).
  { eapply (proj1 (NoDup_nth_error _)); [exact N|apply nth_error_Some; congruence|congruence]. }
  subst i. congruence.
Qed.
Lemma forall_same (A : Type) (P : A * A -> Prop) l : (forall x, In x l -> P (x, x)) -> Forall P (map (fun x => (x, x)) l).
Proof. intros H. apply Forall_map, Forall_forall. exact H. Qed.
Lemma map_id_pairs (A : Type) (l : list A) : map fst (map (fun x => (x, x)) l) = l /\ map snd (map (fun x => (x, x)) l) = l.
Proof. rewrite !map_map. cbn. rewrite map_id. auto. Qed.
Lemma near_pos f v n c : within_clause f v n c -> 1 <= n.
Proof. induction 1; lia. Qed.

Section Local.
Variables (f g : weighted) (v n : nat).
Hypothesis A : forall j c, j <= n -> within_clause f v j c \/ within_clause g v j c ->
  row g c = row f c /\ nth c (w_types g) [] = nth c (w_types f) [] /\
  forall w, In w (row f c) -> nth w (w_costs g) 0%Qc = nth w (w_costs f) 0%Qc.

Lemma near_both j c : j <= n -> within_clause f v j c -> within_clause g v j c.
Proof.
  intros Hj N. induction N as [c I|j c w c' N IH I1 I2].
  - apply near_first. destruct (A 1 c Hj) as (E & _); [left; now constructor|]. unfold row in E. now rewrite E.
  - assert (Gc : within_clause g v j c) by (apply IH; lia). destruct (A j c) as (E & _); [lia|auto|].
    assert (N' : within_clause f v (S j) c') by (econstructor; eauto). destruct (A (S j) c' Hj) as (E' & _); [auto|]. unfold row in *.
    apply near_next with (c := c) (w := w); [exact Gc|now rewrite E|now rewrite E'].
Qed.
Lemma others_same d w j : j < n -> within_clause f v j d -> In w (row f d) -> Permutation (others d (clauses_with f w)) (others d (clauses_with g w)).
Proof.
  intros Hj N I. destruct (A j d) as (E & _); [lia|auto|]. pose proof (near_both j d ltac:(lia) N) as N'.
  apply NoDup_Permutation; [apply NoDup_filter, clauses_with_NoDup|apply NoDup_filter, clauses_with_NoDup|].
  intros c. rewrite !others_iff. split; intros (I1 & Ne); (split; [|exact Ne]); apply clauses_with_iff in I1 as (_ & I1); apply row_clauses.
  - destruct (A (S j) c) as (E' & _); [lia|left; eapply near_next; eauto|]. now rewrite E'.
  - destruct (A (S j) c) as (E' & _); [lia|right; eapply near_next; [exact N'| |exact I1]; unfold row in E; rewrite E; exact I|]. now rewrite <- E'.
Qed.
Lemma same_clause c : row g c = row f c -> nth c (w_types g) [] = nth c (w_types f) [] -> forall w, same_type f g c w c w.
Proof. unfold row, same_type, occurs. intros -> -> w t. reflexivity. Qed.
Lemma local_branch m : forall j c w, j + m <= n -> within_clause f v j c -> In w (row f c) -> branch f g m c w c w.
Proof.
  induction m as [|m IH]; intros j c w Hj N I; (split; [symmetry; apply (A j c); [lia|auto|exact I]|]); [exact Logic.I|].
  exists (map (fun x => (x, x)) (others c (clauses_with f w))). destruct (map_id_pairs _ (others c (clauses_with f w))) as (E1 & E2).
  rewrite E1, E2. split; [reflexivity|]. split; [eapply others_same; eauto; lia|]. apply forall_same. intros c' Hc'. cbn [fst snd].
  apply others_iff in Hc' as (Hc' & _). apply clauses_with_iff in Hc' as (_ & Hc').
  assert (N' : within_clause f v (S j) c') by (eapply near_next; eauto).
  destruct (A (S j) c') as (R1 & R2 & _); [lia|auto|]. pose proof (same_clause c' R1 R2) as St. split; [apply St|].
  exists (map (fun x => (x, x)) (others w (row f c'))). destruct (map_id_pairs _ (others w (row f c'))) as (E3 & E4).
  rewrite E3, E4. split; [reflexivity|]. unfold row in R1. rewrite R1. split; [reflexivity|]. apply forall_same. intros u Hu. split; [apply St|].
  cbn [fst snd]. apply (IH (S j)); [lia|exact N'|]. apply others_iff in Hu. tauto.
Qed.
Lemma local_looks : 1 <= n -> looks_like f g (n - 1) v v.
Proof.
  intros Hn. exists (map (fun x => (x, x)) (clauses_with f v)). destruct (map_id_pairs _ (clauses_with f v)) as (E1 & E2).
  rewrite E1, E2. split; [reflexivity|]. split.
  { apply NoDup_Permutation; [apply clauses_with_NoDup|apply clauses_with_NoDup|].
    intros c. split; intros I1; apply clauses_with_iff in I1 as (_ & I1); apply row_clauses.
    - destruct (A 1 c) as (E' & _); [lia|left; now apply near_first|]. now rewrite E'.
    - destruct (A 1 c) as (E' & _); [lia|right; now apply near_first|]. now rewrite <- E'. }
  apply forall_same. intros c Hc. apply clauses_with_iff in Hc as (_ & Hc). cbn [fst snd].
  assert (N : within_clause f v 1 c) by (now apply near_first).
  destruct (A 1 c) as (R1 & R2 & _); [lia|auto|]. pose proof (same_clause c R1 R2) as St. split; [apply St|].
  exists (map (fun x => (x, x)) (others v (row f c))). destruct (map_id_pairs _ (others v (row f c))) as (E3 & E4).
  rewrite E3, E4. split; [reflexivity|]. unfold row in R1. rewrite R1. split; [reflexivity|]. apply forall_same. intros u Hu. split; [apply St|].
  cbn [fst snd]. apply (local_branch (n - 1) 1); [lia|exact N|]. apply others_iff in Hu. tauto.
Qed.
End Local.

(** ** Coverings *)
Lemma others_perm (h : nat -> nat) l l' d : NoDup l' -> Permutation (map h l) l' -> In d l ->
  Permutation (map h (others d l)) (others (h d) l').
Proof.
  intros N P I. assert (Nh : NoDup (map h l)) by (eapply Permutation_NoDup; [apply Permutation_sym, P|exact N]).
  apply perm_trans with (others (h d) (map h l)).
  - clear P N l'. assert (E : map h (others d l) = others (h d) (map h l)); [|rewrite E; reflexivity].
    unfold others. assert (Inj : forall x, In x l -> h x = h d -> x = d).
    { intros x Ix E. revert x d I Ix E. induction l as [|y l IH]; intros x d I Ix E; [destruct I|]. cbn [map] in Nh. inversion_clear Nh as [|? ? N1 N2].
      destruct I as [->|I], Ix as [->|Ix]; auto.
      - exfalso. apply N1. rewrite <- E. now apply in_map.
      - exfalso. apply N1. rewrite E. now apply in_map. }
    clear Nh I. induction l as [|y l IH]; [reflexivity|]. cbn [map filter].
    assert (Q : (h y =? h d) = (y =? d)).
    { destruct (Nat.eqb_spec y d) as [->|Ne]; [apply Nat.eqb_refl|]. apply Nat.eqb_neq. intros E. apply Ne, Inj; [left; reflexivity|exact E]. }
    rewrite Q. destruct (negb (y =? d)); cbn [map]; rewrite IH; auto; intros x Hx; apply Inj; right; exact Hx.
  - unfold others. clear -P. revert P. generalize (map h l) as l1. intros l1 P. induction P as [|x l1 l2 P IH|x y l1|l1 l2 l3 P1 IH1 P2 IH2]; cbn [filter].
    + constructor.
    + destruct (negb (x =? h d)); auto.
    + destruct (negb (x =? h d)), (negb (y =? h d)); try reflexivity. apply perm_swap.
    + eapply perm_trans; eauto.
Qed.

Section Cover.
Variables (nv nw : nat) (f g : weighted) (fv fc : nat -> nat).
Hypothesis Sf : sound nv f.
Hypothesis Sg : sound nw g.
Hypothesis Lg : length (w_costs g) = nw.
Hypothesis C : covering f g fv fc.

Lemma cover_type d x : In x (row g d) -> same_type f g (fc d) (fv x) d x.
Proof.
  intros I t. destruct C as (C1 & _). destruct (row_occurs nw g d x Sg I) as (t0 & O). destruct (C1 d x t0 O) as (O' & _). split; intros H.
  - rewrite (type_unique nv f _ _ _ _ Sf H O'). exact O.
  - apply C1, H.
Qed.
Lemma cover_row d x : In x (row g d) -> d < length (w_conx g) /\ x < nw.
Proof. intros I. split; [apply row_clauses, clauses_with_iff in I; tauto|]. apply (Sg d), I. Qed.
Lemma cover_clause (R : nat -> nat -> nat -> nat -> Prop) d x : In x (row g d) ->
  (forall y, In y (row g d) -> R (fc d) (fv y) d y) -> clause_alike f g R (fc d) (fv x) d x.
Proof.
  intros I H. split; [now apply cover_type|]. exists (map (fun y => (fv y, y)) (others x (row g d))). rewrite !map_map. cbn [fst snd]. rewrite map_id.
  split; [|split; [reflexivity|]].
  - apply others_perm; [apply (Sf (fc d))| |exact I]. destruct C as (_ & C2 & _). apply C2, (cover_row d x I).
  - apply Forall_map, Forall_forall. intros y Hy. apply others_iff in Hy as (Hy & _). cbn [fst snd]. split; [now apply cover_type|auto].
Qed.
Lemma cover_branch n : forall d x, In x (row g d) -> branch f g n (fc d) (fv x) d x.
Proof.
  induction n as [|n IH]; intros d x I; destruct C as (C1 & C2 & C3); destruct (row_occurs nw g d x Sg I) as (t & O);
    (split; [symmetry; apply (C1 d x t O)|]); [exact Logic.I|].
  exists (map (fun d' => (fc d', d')) (others d (clauses_with g x))). rewrite !map_map. cbn [fst snd]. rewrite map_id.
  split; [|split; [reflexivity|]].
  - apply others_perm; [apply clauses_with_NoDup| |now apply row_clauses]. apply C3. rewrite Lg. apply (cover_row d x I).
  - apply Forall_map, Forall_forall. intros d' Hd'. apply others_iff in Hd' as (Hd' & _). apply clauses_with_iff in Hd' as (_ & Hd'). cbn [fst snd].
    apply cover_clause; auto.
Qed.
Lemma cover_looks n x : x < nw -> looks_like f g n (fv x) x.
Proof.
  intros Hx. exists (map (fun d => (fc d, d)) (clauses_with g x)). rewrite !map_map. cbn [fst snd]. rewrite map_id.
  split; [|split; [reflexivity|]].
  - destruct C as (_ & _ & C3). apply C3. now rewrite Lg.
  - apply Forall_map, Forall_forall. intros d Hd. apply clauses_with_iff in Hd as (_ & Hd). cbn [fst snd].
    apply cover_clause; auto. intros y Hy. now apply cover_branch.
Qed.
End Cover.
