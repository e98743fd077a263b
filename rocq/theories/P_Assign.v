(** * Min-sum on assignment problems: potentials and convergence. *)
From Coq Require Import Permutation.
From Verif Require Import Num NumFacts Arr ArrFacts Spec SpecRun SpecGraph SpecCover P_Ksat P_PyRef_Ksat.
Local Open Scope nat_scope.

(** ** Following a list of pairs *)
Fixpoint look (l : list (nat * nat)) (x : nat) : nat :=
  match l with (a, b) :: t => if a =? x then b else look t x | [] => x end.
Lemma look_out c d x : ~ In x c -> look (combine c d) x = x.
Proof.
  revert d; induction c as [|a c IH]; intros d H; [reflexivity|]. destruct d as [|b d]; [reflexivity|].
  cbn [combine look]. destruct (Nat.eqb_spec a x) as [->|N]; [exfalso; apply H; now left|].
  apply IH. intros I; apply H; now right.
Qed.
Lemma look_map c d : NoDup c -> length d = length c -> map (look (combine c d)) c = d.
Proof.
  revert d; induction c as [|a c IH]; intros d N L; destruct d as [|b d]; try discriminate; [reflexivity|].
  inversion N as [|? ? Na Nc]; subst. cbn [combine map look]. rewrite Nat.eqb_refl. f_equal.
  transitivity (map (look (combine c d)) c); [|apply IH; auto; cbn in L; lia].
  apply map_ext_in. intros x I.
  destruct (Nat.eqb_spec a x) as [->|]; [contradiction|reflexivity].
Qed.
Lemma look_id c d r : (forall x, In x r -> ~ In x c) -> map (look (combine c d)) r = r.
Proof. intros H. rewrite <- (map_id r) at 2. apply map_ext_in. intros x I. apply look_out; auto. Qed.
Lemma look_in c d : NoDup c -> length d = length c -> forall x, In x c -> In (x, look (combine c d) x) (combine c d).
Proof.
  revert d; induction c as [|a c IH]; intros d N L x I; [destruct I|]. destruct d as [|b d]; [discriminate|].
  inversion N as [|? ? Na Nc]; subst. cbn [combine look]. destruct (Nat.eqb_spec a x) as [->|]; [now left|].
  right. apply IH; auto. destruct I; [contradiction|auto].
Qed.

(** cost of the pairs [(x, f y)] *)
Lemma qsum_look (w : nat -> nat -> Qc) (f : nat -> nat) c d : NoDup c -> length d = length c ->
  qsum (map (fun x => w x (f (look (combine c d) x))) c) = qsum (map (fun e => w (fst e) (f (snd e))) (combine c d)).
Proof.
  revert d; induction c as [|a c IH]; intros d N L; [reflexivity|]. destruct d as [|b d]; [discriminate|].
  inversion N as [|? ? Na Nc]; subst. cbn [combine map look fst snd]. rewrite Nat.eqb_refl.
  change (qsum (?x :: ?l)) with (x + qsum l)%Qc. f_equal.
  rewrite <- (IH d Nc) by (cbn in L; lia). f_equal. apply map_ext_in. intros x I.
  destruct (Nat.eqb_spec a x) as [->|]; [contradiction|reflexivity].
Qed.

(** ** Walks *)
(** weight of a walk *)
Fixpoint walk (g : nat -> nat -> Qc) (p : list nat) : Qc :=
  match p with
  | x :: ((y :: _) as t) => (g x y + walk g t)%Qc
  | _ => 0%Qc
  end.
Lemma walk_cons g x y t : walk g (x :: y :: t) = (g x y + walk g (y :: t))%Qc.
Proof. reflexivity. Qed.
Lemma walk_app g a x b : walk g (a ++ x :: b) = (walk g (a ++ [x]) + walk g (x :: b))%Qc.
Proof.
  revert x b; induction a as [|z a IH]; intros x b.
  - cbn [app]. change (walk g [x]) with 0%Qc. ring.
  - destruct a as [|y a]; cbn [app].
    + rewrite !walk_cons. change (walk g [x]) with 0%Qc. ring.
    + rewrite !walk_cons. specialize (IH x b). cbn [app] in IH. rewrite IH. ring.
Qed.
Lemma walk_closed g x t : walk g (x :: t ++ [x]) = qsum (map (fun e => g (fst e) (snd e)) (combine (x :: t) (t ++ [x]))).
Proof.
  generalize x at 2 4 as z. revert x. induction t as [|y t IH]; intros x z.
  - cbn. ring.
  - cbn [app combine map fst snd]. rewrite walk_cons, IH. reflexivity.
Qed.
Lemma walk_shift g c p : walk (fun x y => g x y + c)%Qc p = (walk g p + qn (pred (length p)) * c)%Qc.
Proof.
  induction p as [|x p IH]; [cbn; ring|]. destruct p as [|y p]; [cbn; ring|].
  rewrite !walk_cons, IH. cbn [length pred qn]. ring.
Qed.
Lemma qn_nonneg k : (0 <= qn k)%Qc.
Proof. induction k as [|k IH]; [apply Qcle_refl|cbn [qn]; qlra]. Qed.
Lemma qn_mono j k : j <= k -> (qn j <= qn k)%Qc.
Proof. induction 1 as [|k _ IH]; [apply Qcle_refl|cbn [qn]; qlra]. Qed.
Lemma qn_pos k : 0 < k -> (0 < qn k)%Qc.
Proof. destruct k as [|k]; [lia|]. intros _. cbn [qn]. pose proof (qn_nonneg k). qlra. Qed.
Lemma mul_mono a b c : (a <= b -> 0 <= c -> a * c <= b * c)%Qc.
Proof. intros; apply Qcmult_le_compat_r; auto. Qed.
Lemma walk_le g c p : (forall x y, consecutive p x y -> (g x y <= c)%Qc) -> (walk g p <= qn (pred (length p)) * c)%Qc.
Proof.
  induction p as [|x p IH]; intros H; [cbn; qlra|]. destruct p as [|y p]; [cbn; qlra|].
  rewrite walk_cons. cbn [length pred qn].
  assert (A : (g x y <= c)%Qc) by (apply H; exists [], p; reflexivity).
  assert (B : (walk g (y :: p) <= qn (pred (length (y :: p))) * c)%Qc).
  { apply IH. intros u v (a & b & Q). apply H. exists (x :: a), b. cbn. now rewrite Q. }
  cbn [length pred] in B. qlra.
Qed.

(** ** Largest element of a list of rationals, at least 0 *)
Definition qmax0 (l : list Qc) : Qc := fold_right (fun a b => if qltb b a then a else b) 0%Qc l.
Lemma qmax0_ge l a : In a l -> (a <= qmax0 l)%Qc.
Proof.
  induction l as [|b l IH]; [intros []|]. cbn [In qmax0 fold_right]. fold (qmax0 l).
  destruct (qltb_spec (qmax0 l) b) as [H|H]; intros [->|I]; try specialize (IH I); qlra.
Qed.
Lemma qmax0_nonneg l : (0 <= qmax0 l)%Qc.
Proof.
  induction l as [|b l IH]; [apply Qcle_refl|]. cbn [qmax0 fold_right]. fold (qmax0 l).
  destruct (qltb_spec (qmax0 l) b); qlra.
Qed.
Lemma qmax0_in l : qmax0 l = 0%Qc \/ In (qmax0 l) l.
Proof.
  induction l as [|b l IH]; [now left|]. cbn [qmax0 fold_right]. fold (qmax0 l).
  destruct (qltb_spec (qmax0 l) b); [right; now left|]. destruct IH as [->|I]; [now left|right; now right].
Qed.

(** all lists over the nodes below [n] of length at most [k] *)
Fixpoint lists_upto (n k : nat) : list (list nat) :=
  match k with
  | O => [[]]
  | S k => [] :: flat_map (fun x => map (cons x) (lists_upto n k)) (seq 0 n)
  end.
Lemma in_lists_upto n k l : length l <= k -> (forall x, In x l -> x < n) -> In l (lists_upto n k).
Proof.
  revert l; induction k as [|k IH]; intros l L H.
  - destruct l; [now left|cbn in L; lia].
  - destruct l as [|x l]; [now left|]. right. apply in_flat_map. exists x. split.
    + apply in_seq. split; [lia|]. apply H; now left.
    + apply in_map, IH; [cbn in L; lia|]. intros y I; apply H; now right.
Qed.

(** ** Potentials of a unique cheapest cover *)
Section Potentials.
Variables (n : nat) (w : nat -> nat -> Qc) (s : list nat) (W delta : Qc).
Let sg i := nth i s 0.
Hypothesis Hs : cover n s.
Hypothesis Hgap : forall s', cover n s' -> s' <> s ->
  (qsum (map (fun i => w i (sg i)) (seq 0 n)) + qn n * delta <= qsum (map (fun i => w i (nth i s' 0%nat)) (seq 0 n)))%Qc.
Hypothesis Hd : (0 < delta)%Qc.
Hypothesis HW : forall i k, i < n -> k < n -> i <> k -> (- W <= w i k /\ w i k <= W)%Qc.

Lemma s_length : length s = n.
Proof. rewrite (Permutation_length (proj1 Hs)). apply seq_length. Qed.
Lemma sg_nth i : i < n -> nth_error s i = Some (sg i).
Proof. intros H. apply nth_error_nth'. rewrite s_length; exact H. Qed.
Lemma sg_lt i : i < n -> sg i < n.
Proof.
  intros H. assert (I : In (sg i) (seq 0 n)).
  { apply (Permutation_in _ (proj1 Hs)), nth_In. rewrite s_length; exact H. }
  apply in_seq in I; lia.
Qed.
Lemma sg_neq i : i < n -> sg i <> i.
Proof. intros H Q. apply (proj2 Hs i). rewrite sg_nth by auto. now rewrite Q. Qed.
Lemma s_nodup : NoDup s.
Proof. eapply Permutation_NoDup; [apply Permutation_sym, (proj1 Hs)|apply seq_NoDup]. Qed.
Lemma sg_inj i j : i < n -> j < n -> sg i = sg j -> i = j.
Proof.
  intros Hi Hj Q. apply (proj1 (NoDup_nth s 0) s_nodup); rewrite ?s_length; auto.
Qed.
Lemma map_sg : map sg (seq 0 n) = s.
Proof.
  rewrite <- s_length. unfold sg. clear. induction s as [|a l IH]; [reflexivity|].
  cbn [length seq map nth]. f_equal. rewrite <- seq_shift, map_map. exact IH.
Qed.
Lemma sg_onto k : k < n -> exists i, i < n /\ sg i = k.
Proof.
  intros H. assert (I : In k s) by (apply (Permutation_in _ (Permutation_sym (proj1 Hs))), in_seq; lia).
  rewrite <- map_sg in I. apply in_map_iff in I as (i & Q & I). apply in_seq in I. exists i; split; [lia|exact Q].
Qed.

Definition arc (i l : nat) : Prop := i < n /\ l < n /\ l <> i /\ sg l <> i.
Definition gain (i l : nat) : Qc := (w l (sg l) - w i (sg l) + delta)%Qc.

(** exchanging the successors along a closed walk gives another cover *)
Lemma exchange i t : NoDup (i :: t) -> (forall x y, In (x, y) (combine (i :: t) (t ++ [i])) -> arc x y) ->
  (walk gain (i :: t ++ [i]) <= 0)%Qc.
Proof.
  intros N HA. set (c := i :: t) in *. set (d := t ++ [i]) in *.
  assert (Ld : length d = length c) by (unfold d, c; rewrite app_length; cbn; lia).
  assert (Hc : forall x, In x c -> In (x, look (combine c d) x) (combine c d)) by (apply look_in; auto).
  assert (Bc : forall x, In x c -> x < n) by (intros x I; destruct (HA _ _ (Hc x I)) as (B & _); exact B).
  set (pi := look (combine c d)) in *.
  destruct (take_out c (seq 0 n) N) as (r & P); [intros x I; apply in_seq; specialize (Bc x I); lia|].
  assert (Nr : forall x, In x r -> ~ In x c).
  { assert (NN : NoDup (c ++ r)) by (eapply Permutation_NoDup; [exact P|apply seq_NoDup]).
    intros x I J. apply in_split in J as (a & b & J). rewrite J, <- app_assoc in NN. cbn [app] in NN. apply NoDup_remove_2 in NN.
    apply NN. rewrite app_assoc. apply in_or_app. now right. }
  assert (Ppi : Permutation (map pi (seq 0 n)) (seq 0 n)).
  { eapply Permutation_trans; [apply Permutation_map, P|]. rewrite map_app. unfold pi.
    rewrite look_map, look_id by auto.
    eapply Permutation_trans; [|apply Permutation_sym, P]. apply Permutation_app_tail.
    unfold c, d. apply Permutation_sym, Permutation_cons_append. }
  assert (Bpi : forall x, x < n -> pi x < n).
  { intros x H. assert (I : In (pi x) (seq 0 n)) by (apply (Permutation_in _ Ppi), in_map, in_seq; lia).
    apply in_seq in I; lia. }
  set (s' := map (fun x => sg (pi x)) (seq 0 n)).
  assert (Es' : forall x, x < n -> nth x s' 0 = sg (pi x)).
  { intros x H. unfold s'. apply nth_error_nth. rewrite nth_error_map.
    rewrite (nth_error_nth' (seq 0 n) 0) by (rewrite seq_length; lia). rewrite seq_nth by lia. reflexivity. }
  assert (Cs' : cover n s').
  { split.
    - unfold s'. rewrite <- (map_map pi sg). eapply Permutation_trans; [apply Permutation_map, Ppi|].
      rewrite map_sg. apply Hs.
    - intros x Q. assert (Hx : x < n).
      { assert (x < length s') by (apply nth_error_Some; congruence). unfold s' in H. now rewrite map_length, seq_length in H. }
      apply (nth_error_nth _ _ 0) in Q. rewrite Es' in Q by auto.
      destruct (in_dec Nat.eq_dec x c) as [I|I].
      + destruct (HA _ _ (Hc x I)) as (_ & _ & _ & A). contradiction.
      + unfold pi in Q. rewrite look_out in Q by auto. exact (sg_neq x Hx Q). }
  assert (Ns' : s' <> s).
  { intros Q. assert (Ii : In i c) by now left. destruct (HA _ _ (Hc i Ii)) as (A1 & A2 & A3 & _). fold pi in A2, A3.
    apply A3, sg_inj; auto. rewrite <- Es' by auto. now rewrite Q. }
  pose proof (Hgap s' Cs' Ns') as G.
  assert (S1 : qsum (map (fun x => w x (nth x s' 0)) (seq 0 n)) =
               (qsum (map (fun e => w (fst e) (sg (snd e))) (combine c d)) + qsum (map (fun x => w x (sg x)) r))%Qc).
  { rewrite (map_ext_in _ (fun x => w x (sg (pi x)))) by (intros x I; apply in_seq in I; rewrite Es' by lia; reflexivity).
    rewrite (qsum_perm _ _ (Permutation_map _ P)), map_app, qsum_app. f_equal.
    - unfold pi. apply qsum_look; auto.
    - f_equal. apply map_ext_in. intros x I. unfold pi. rewrite look_out by auto. reflexivity. }
  assert (S0 : qsum (map (fun x => w x (sg x)) (seq 0 n)) =
               (qsum (map (fun x => w x (sg x)) d) + qsum (map (fun x => w x (sg x)) r))%Qc).
  { rewrite (qsum_perm _ _ (Permutation_map _ P)), map_app, qsum_app. f_equal.
    apply qsum_perm, Permutation_map. unfold c, d. apply Permutation_cons_append. }
  assert (Wk : walk gain (i :: d) =
    (qsum (map (fun x => w x (sg x)) d) - qsum (map (fun e => w (fst e) (sg (snd e))) (combine c d)) + qn (length c) * delta)%Qc).
  { unfold gain. rewrite (walk_shift (fun x y => w y (sg y) - w x (sg y))%Qc). unfold d at 1. rewrite walk_closed. fold c d.
    replace (pred (length (i :: d))) with (length c) by (cbn [length pred]; lia). f_equal.
    clearbody c d. clear - Ld. revert d Ld. induction c as [|a l IH]; intros d L; destruct d as [|b d]; try discriminate; [cbn; ring|].
    cbn [combine map fst snd]. rewrite !qsum_cons. rewrite IH by (cbn in L; lia). ring. }
  assert (Lc : (qn (length c) * delta <= qn n * delta)%Qc).
  { apply mul_mono; [|qlra]. apply qn_mono. rewrite <- (seq_length n 0). apply NoDup_incl_length; auto.
    intros x I. apply in_seq. specialize (Bc x I). lia. }
  rewrite Wk. rewrite S1, S0 in G. qlra.
Qed.

(** simple walks along arcs *)
Definition arcb (i l : nat) : bool := (i <? n) && (l <? n) && negb (l =? i) && negb (sg l =? i).
Lemma arcb_spec i l : arcb i l = true <-> arc i l.
Proof.
  unfold arcb, arc. rewrite !andb_true_iff, !negb_true_iff, !Nat.ltb_lt, !Nat.eqb_neq. tauto.
Qed.
Fixpoint simple (p : list nat) : bool :=
  match p with
  | [] => true
  | x :: t => (x <? n) && negb (existsb (Nat.eqb x) t) && match t with [] => true | y :: _ => arcb x y end && simple t
  end.
Lemma simple_cons x t : simple (x :: t) = true <->
  x < n /\ ~ In x t /\ match t with [] => True | y :: _ => arc x y end /\ simple t = true.
Proof.
  cbn [simple]. rewrite !andb_true_iff, negb_true_iff, Nat.ltb_lt.
  assert (A : existsb (Nat.eqb x) t = false <-> ~ In x t).
  { rewrite <- not_true_iff_false, existsb_exists. split; intros H I; apply H.
    - exists x; split; [exact I|apply Nat.eqb_refl].
    - destruct I as (y & I & Q). apply Nat.eqb_eq in Q. now subst. }
  rewrite A. destruct t as [|y t]; [tauto|]. rewrite arcb_spec. tauto.
Qed.
Lemma simple_nodup p : simple p = true -> NoDup p.
Proof. induction p as [|x p IH]; [constructor|]. intros H. apply simple_cons in H. constructor; tauto. Qed.
Lemma simple_lt p : simple p = true -> forall x, In x p -> x < n.
Proof.
  induction p as [|x p IH]; [intros _ x []|]. intros H y [<-|I]; apply simple_cons in H; [tauto|]. apply IH; tauto.
Qed.
Lemma simple_step p : simple p = true -> forall x y, consecutive p x y -> arc x y.
Proof.
  induction p as [|z p IH]; intros H x y (a & b & Q); [destruct a; discriminate|].
  apply simple_cons in H as (_ & _ & H1 & H2). destruct a as [|z' a]; cbn [app] in Q; injection Q as -> Q.
  - subst p. exact H1.
  - apply IH; auto. exists a, b; exact Q.
Qed.
Lemma simple_suffix a b : simple (a ++ b) = true -> simple b = true.
Proof. induction a as [|x a IH]; [auto|]. intros H. apply IH. cbn [app] in H. apply simple_cons in H; tauto. Qed.

Definition pot (i : nat) : Qc :=
  qmax0 (map (walk gain) (filter (fun p => match p with x :: _ => x =? i | [] => false end && simple p) (lists_upto n n))).
Lemma pot_ge i t : simple (i :: t) = true -> (walk gain (i :: t) <= pot i)%Qc.
Proof.
  intros H. unfold pot. apply qmax0_ge, in_map, filter_In. split.
  - apply in_lists_upto; [|exact (simple_lt _ H)]. rewrite <- (seq_length n 0).
    apply NoDup_incl_length; [exact (simple_nodup _ H)|]. intros x I. apply in_seq. pose proof (simple_lt _ H x I). lia.
  - rewrite Nat.eqb_refl. exact H.
Qed.
Lemma pot_is i : i < n -> exists t, simple (i :: t) = true /\ pot i = walk gain (i :: t).
Proof.
  intros Hi. unfold pot. match goal with |- context [qmax0 ?l] => destruct (qmax0_in l) as [Q|I] end.
  - exists []. split; [apply simple_cons; cbn; tauto|]. exact Q.
  - apply in_map_iff in I as (p & Q & I). apply filter_In in I as (_ & I).
    destruct p as [|x t]; [discriminate|]. apply andb_prop in I as (I1 & I2). apply Nat.eqb_eq in I1. subst x.
    exists t. split; [exact I2|]. symmetry; exact Q.
Qed.
Lemma combine_consecutive x t z u v : In (u, v) (combine (x :: t) (t ++ [z])) -> consecutive (x :: t ++ [z]) u v.
Proof.
  revert x; induction t as [|y t IH]; intros x I.
  - cbn in I. destruct I as [Q|[]]. injection Q as -> ->. exists [], []. reflexivity.
  - cbn [combine app] in I. destruct I as [Q|I].
    + injection Q as -> ->. exists [], (t ++ [z]). reflexivity.
    + destruct (IH _ I) as (a & b & Q). exists (x :: a), b. cbn [app]. now rewrite <- Q.
Qed.
Lemma pot_arc i l : arc i l -> (gain i l + pot l <= pot i)%Qc.
Proof.
  intros A. pose proof A as (Hi & Hl & Nl & Ns). destruct (pot_is l Hl) as (t & Sp & Q). rewrite Q.
  destruct (in_dec Nat.eq_dec i (l :: t)) as [I|I].
  - destruct I as [I|I]; [congruence|]. apply in_split in I as (a & b & ->).
    assert (E : l :: a ++ i :: b = (l :: a) ++ i :: b) by reflexivity.
    assert (Sb : simple (i :: b) = true) by (apply (simple_suffix (l :: a)); rewrite <- E; exact Sp).
    pose proof (pot_ge i b Sb) as G.
    assert (X : (walk gain (i :: (l :: a) ++ [i]) <= 0)%Qc).
    { apply exchange.
      - pose proof (simple_nodup _ Sp) as N. rewrite E in N. constructor.
        + apply NoDup_remove_2 in N. intros J; apply N, in_or_app; now left.
        + apply NoDup_remove_1 in N. clear - N. induction (l :: a) as [|z c IH]; [constructor|].
          cbn [app] in N. inversion N as [|? ? N1 N2]; subst. constructor; [|auto]. intros J; apply N1, in_or_app; now left.
      - intros x y J. apply combine_consecutive in J. destruct J as (u & v & J). destruct u as [|z u].
        + cbn [app] in J. injection J as <- <- _. exact A.
        + cbn [app] in J. injection J as <- J. apply (simple_step _ Sp). exists u, (v ++ b). rewrite E.
          change (i :: b) with ([i] ++ b). rewrite app_assoc. change ((l :: a) ++ [i]) with (l :: a ++ [i]).
          rewrite J, <- app_assoc. reflexivity. }
    cbn [app] in X. rewrite walk_cons in X. rewrite E, walk_app. change ((l :: a) ++ [i]) with (l :: a ++ [i]). qlra.
  - assert (Sp' : simple (i :: l :: t) = true) by (apply simple_cons; tauto).
    pose proof (pot_ge i _ Sp') as G. rewrite walk_cons in G. exact G.
Qed.
Lemma W_nonneg i : i < n -> (0 <= W)%Qc.
Proof. intros H. destruct (HW i (sg i)) as (A & B); auto using sg_lt. intros Q; exact (sg_neq i H (eq_sym Q)). qlra. Qed.
Lemma pot_bound i : i < n -> (0 <= pot i /\ pot i <= qn (pred n) * (W + W + delta))%Qc.
Proof.
  intros Hi. split; [apply qmax0_nonneg|]. destruct (pot_is i Hi) as (t & Sp & ->). pose proof (W_nonneg i Hi) as W0.
  eapply Qcle_trans; [apply (walk_le gain (W + W + delta)%Qc)|].
  - intros x y J. destruct (simple_step _ Sp x y J) as (H1 & H2 & H3 & H4). unfold gain.
    destruct (HW y (sg y)) as (A & B); auto using sg_lt; [intros Q; exact (sg_neq y H2 (eq_sym Q))|].
    destruct (HW x (sg y)) as (A' & B'); auto using sg_lt. qlra.
  - apply mul_mono; [|qlra]. apply qn_mono. assert (L : length (i :: t) <= n); [|cbn [length pred] in *; lia].
    rewrite <- (seq_length n 0). apply NoDup_incl_length; [exact (simple_nodup _ Sp)|].
    intros x I. apply in_seq. pose proof (simple_lt _ Sp x I). lia.
Qed.

(** row and column potentials with slack [delta] *)
Definition bound : Qc := ((qn n + qn n) * W + qn n * delta)%Qc.
Lemma potentials : exists u v : nat -> Qc,
  (forall i, i < n -> w i (sg i) = (u i + v (sg i))%Qc) /\
  (forall i k, i < n -> k < n -> i <> k -> k <> sg i -> (u i + v k + delta <= w i k)%Qc) /\
  (forall i, i < n -> (- bound <= u i /\ u i <= bound)%Qc) /\
  (forall k, k < n -> (- bound <= v k /\ v k <= bound)%Qc).
Proof.
  set (inv := look (combine s (seq 0 n))).
  assert (Hinv : forall i, i < n -> inv (sg i) = i).
  { intros i Hi. assert (L : length (seq 0 n) = length s) by (rewrite seq_length, s_length; reflexivity).
    pose proof (look_map s (seq 0 n) s_nodup L) as M. fold inv in M.
    assert (Q : nth_error (map inv s) i = nth_error (seq 0 n) i) by (now rewrite M).
    rewrite nth_error_map, sg_nth in Q by auto. cbn [option_map] in Q.
    rewrite (nth_error_nth' (seq 0 n) 0), seq_nth in Q by (rewrite ?seq_length; auto). injection Q as Q. exact Q. }
  exists (fun i => - pot i)%Qc, (fun k => w (inv k) k + pot (inv k))%Qc.
  assert (HB : forall i, i < n -> (0 <= pot i /\ pot i + W <= bound /\ 0 <= W)%Qc).
  { intros i Hi. pose proof (W_nonneg i Hi) as W0. destruct (pot_bound i Hi) as (A & B). split; [exact A|]. split; [|exact W0].
    unfold bound. destruct n as [|m]; [lia|]. cbn [pred qn] in *. pose proof (qn_nonneg m) as Q0.
    assert (0 <= qn m * W)%Qc by (rewrite <- (Qcmult_0_l W); apply mul_mono; auto). qlra. }
  split; [|split; [|split]].
  - intros i Hi. cbn beta. rewrite Hinv by auto. qlra.
  - intros i k Hi Hk Nik Nk. destruct (sg_onto k Hk) as (l & Hl & <-). rewrite Hinv by auto.
    assert (A : arc i l) by (repeat split; auto; congruence).
    pose proof (pot_arc i l A) as G. unfold gain in G. qlra.
  - intros i Hi. pose proof (HB i Hi). qlra.
  - intros k Hk. destruct (sg_onto k Hk) as (l & Hl & <-). rewrite Hinv by auto. pose proof (HB l Hl).
    destruct (HW l (sg l)) as (A & B); auto using sg_lt; [intros Q; exact (sg_neq l Hl (eq_sym Q))|]. qlra.
Qed.
End Potentials.

(** ** Convergence *)
Section Converge.
Variables (n : nat) (w : nat -> nat -> Qc) (sg : nat -> nat) (u v : nat -> Qc) (delta K be : Qc).
Hypothesis Hsg : forall i, i < n -> sg i < n /\ sg i <> i.
Hypothesis Hsi : forall i j, i < n -> j < n -> sg i = sg j -> i = j.
Hypothesis Hso : forall k, k < n -> exists i, i < n /\ sg i = k.
Hypothesis Htight : forall i, i < n -> w i (sg i) = (u i + v (sg i))%Qc.
Hypothesis Hslack : forall i k, i < n -> k < n -> i <> k -> k <> sg i -> (u i + v k + delta <= w i k)%Qc.
Hypothesis Hu : forall i, i < n -> (- K <= u i /\ u i <= K)%Qc.
Hypothesis Hv : forall i, i < n -> (- K <= v i /\ v i <= K)%Qc.
Hypothesis Hd : (0 < delta)%Qc.
Hypothesis Hbe : (0 <= be /\ be < 1)%Qc.
(** messages from rows and columns after [t] iterations, and the raw updates *)
Variables R C DR DC : nat -> nat -> nat -> Qc.
Hypothesis R0 : forall i k, i < n -> k < n -> i <> k -> R 0 i k = 0%Qc /\ C 0 i k = 0%Qc.
Hypothesis HDR : forall t i k, i < n -> k < n -> i <> k ->
  (exists j, j < n /\ j <> i /\ j <> k /\ DR t i k = (- (w i j + C t i j))%Qc) /\
  (forall j, j < n -> j <> i -> j <> k -> (- DR t i k <= w i j + C t i j)%Qc).
Hypothesis HDC : forall t i k, i < n -> k < n -> i <> k ->
  (exists l, l < n /\ l <> k /\ l <> i /\ DC t i k = (- (w l k + R t l k))%Qc) /\
  (forall l, l < n -> l <> k -> l <> i -> (- DC t i k <= w l k + R t l k)%Qc).
Hypothesis HR : forall t i k, i < n -> k < n -> i <> k ->
  R (S t) i k = (be * R t i k + (1 - be) * DR t i k)%Qc /\
  C (S t) i k = (be * C t i k + (1 - be) * DC t i k)%Qc.

(** [z] is twice the quantity in the invariant *)
Definition inv_at (t : nat) (z : Qc) : Prop := forall i k, i < n -> k < n -> i <> k ->
  if k =? sg i
  then (R t i k + u i + (R t i k + u i) <= - (z + delta) /\ C t i k + v k + (C t i k + v k) <= - (z + delta))%Qc
  else (z <= R t i k + u i + (R t i k + u i) /\ z <= C t i k + v k + (C t i k + v k))%Qc.
Lemma inv_start : inv_at 0 (- (K + K) - delta)%Qc.
Proof.
  intros i k Hi Hk N. destruct (R0 i k Hi Hk N) as (-> & ->). pose proof (Hu i Hi). pose proof (Hv k Hk).
  destruct (k =? sg i); split; qlra.
Qed.
Lemma mix_ge a b x y z : (0 <= be -> be < 1 -> x <= a -> y <= b -> z = be * x + (1 - be) * y -> z <= be * a + (1 - be) * b)%Qc.
Proof.
  intros H0 H1 Ha Hb ->. assert (A : (x * be <= a * be)%Qc) by (apply mul_mono; auto).
  assert (B : (y * (1 - be) <= b * (1 - be))%Qc) by (apply mul_mono; auto; qlra). qlra.
Qed.
Lemma inv_step t z : inv_at t z -> inv_at (S t) (z + (1 - be) * delta)%Qc.
Proof.
  intros I i k Hi Hk N. destruct (HR t i k Hi Hk N) as (-> & ->). destruct Hbe as (B0 & B1).
  destruct (HDR t i k Hi Hk N) as ((j & Hj & Nji & Njk & Ej) & Mj).
  destruct (HDC t i k Hi Hk N) as ((l & Hl & Nlk & Nli & El) & Ml).
  pose proof (I i k Hi Hk N) as Ik. destruct (Nat.eqb_spec k (sg i)) as [Q|Q].
  - destruct Ik as (I1 & I2). split.
    + assert (D : (DR t i k + u i + (DR t i k + u i) <= - (z + delta + delta))%Qc).
      { rewrite Ej. pose proof (I i j Hi Hj (not_eq_sym Nji)) as J.
        destruct (Nat.eqb_spec j (sg i)) as [E|E]; [congruence|]. pose proof (Hslack i j Hi Hj (not_eq_sym Nji) E). qlra. }
      pose proof (mix_ge (- (R t i k + u i + (R t i k + u i))) (- (DR t i k + u i + (DR t i k + u i))) (z + delta) (z + delta + delta)
        (z + delta + (1 - be) * delta) B0 B1)%Qc as X.
      assert (Y : (z + delta + (1 - be) * delta <= be * - (R t i k + u i + (R t i k + u i)) + (1 - be) * - (DR t i k + u i + (DR t i k + u i)))%Qc)
        by (apply X; [qlra|qlra|ring]).
      qlra.
    + assert (D : (DC t i k + v k + (DC t i k + v k) <= - (z + delta + delta))%Qc).
      { rewrite El. pose proof (I l k Hl Hk Nlk) as J.
        destruct (Nat.eqb_spec k (sg l)) as [E|E]; [exfalso; apply Nli, Hsi; auto; congruence|].
        pose proof (Hslack l k Hl Hk Nlk E). qlra. }
      pose proof (mix_ge (- (C t i k + v k + (C t i k + v k))) (- (DC t i k + v k + (DC t i k + v k))) (z + delta) (z + delta + delta)
        (z + delta + (1 - be) * delta) B0 B1)%Qc as X.
      assert (Y : (z + delta + (1 - be) * delta <= be * - (C t i k + v k + (C t i k + v k)) + (1 - be) * - (DC t i k + v k + (DC t i k + v k)))%Qc)
        by (apply X; [qlra|qlra|ring]).
      qlra.
  - destruct Ik as (I1 & I2). split.
    + assert (D : (z + delta <= DR t i k + u i + (DR t i k + u i))%Qc).
      { destruct (Hsg i Hi) as (S1 & S2). pose proof (Mj (sg i) S1 S2 (not_eq_sym Q)) as G.
        pose proof (I i (sg i) Hi S1 (not_eq_sym S2)) as J. rewrite Nat.eqb_refl in J. rewrite Htight in G by auto. qlra. }
      pose proof (mix_ge (R t i k + u i + (R t i k + u i)) (DR t i k + u i + (DR t i k + u i)) z (z + delta)
        (z + (1 - be) * delta) B0 B1)%Qc as X.
      assert (Y : (z + (1 - be) * delta <= be * (R t i k + u i + (R t i k + u i)) + (1 - be) * (DR t i k + u i + (DR t i k + u i)))%Qc)
        by (apply X; [qlra|qlra|ring]).
      qlra.
    + assert (D : (z + delta <= DC t i k + v k + (DC t i k + v k))%Qc).
      { destruct (Hso k Hk) as (m & Hm & Em). destruct (Hsg m Hm) as (S1 & S2).
        assert (Nm : m <> k) by congruence. assert (Nmi : m <> i) by congruence.
        pose proof (Ml m Hm Nm Nmi) as G. pose proof (I m k Hm Hk Nm) as J. rewrite <- Em, Nat.eqb_refl in J.
        rewrite <- Em in G. rewrite Htight in G by auto. rewrite Em in *. qlra. }
      pose proof (mix_ge (C t i k + v k + (C t i k + v k)) (DC t i k + v k + (DC t i k + v k)) z (z + delta)
        (z + (1 - be) * delta) B0 B1)%Qc as X.
      assert (Y : (z + (1 - be) * delta <= be * (C t i k + v k + (C t i k + v k)) + (1 - be) * (DC t i k + v k + (DC t i k + v k)))%Qc)
        by (apply X; [qlra|qlra|ring]).
      qlra.
Qed.
Lemma inv_all t : inv_at t (- (K + K) - delta + qn t * ((1 - be) * delta))%Qc.
Proof.
  induction t as [|t IH].
  - cbn [qn]. replace (- (K + K) - delta + 0 * ((1 - be) * delta))%Qc with (- (K + K) - delta)%Qc by ring. exact inv_start.
  - cbn [qn]. replace (- (K + K) - delta + (qn t + 1) * ((1 - be) * delta))%Qc
      with (- (K + K) - delta + qn t * ((1 - be) * delta) + (1 - be) * delta)%Qc by ring.
    apply inv_step, IH.
Qed.
(** the sum of both messages and the cost decides *)
Lemma decide t i k : i < n -> k < n -> i <> k ->
  if k =? sg i then (R t i k + C t i k + w i k <= K + K - qn t * ((1 - be) * delta))%Qc
  else (qn t * ((1 - be) * delta) - (K + K) <= R t i k + C t i k + w i k)%Qc.
Proof.
  intros Hi Hk N. pose proof (inv_all t i k Hi Hk N) as I. destruct (Nat.eqb_spec k (sg i)) as [Q|Q].
  - pose proof (Htight i Hi) as T. rewrite <- Q in T. qlra.
  - pose proof (Hslack i k Hi Hk N Q). qlra.
Qed.
End Converge.
