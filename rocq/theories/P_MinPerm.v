(** * Min-sum messages do not depend on the order of the variables *)
From Coq Require Import Permutation.
From Verif Require Import Num NumFacts Arr ArrFacts Spec MinSum MinSumFacts P_Ksat P_PyRef_Ksat.
Local Open Scope nat_scope.

(** [s] maps the positions below [n] one to one onto themselves *)
Definition shuffles (n : nat) (s : nat -> nat) : Prop := Permutation (map s (seq 0 n)) (seq 0 n).
Lemma shuffles_lt n s i : shuffles n s -> i < n -> s i < n.
Proof.
  intros P H. assert (I : In (s i) (seq 0 n)); [|apply in_seq in I; lia].
  apply (Permutation_in _ P). apply in_map, in_seq. lia.
Qed.
Lemma shuffles_inj n s i j : shuffles n s -> i < n -> j < n -> s i = s j -> i = j.
Proof.
  intros P Hi Hj E. assert (N : NoDup (map s (seq 0 n))) by (eapply Permutation_NoDup; [symmetry; exact P|apply seq_NoDup]).
  assert (L : length (map s (seq 0 n)) = n) by (rewrite map_length; apply seq_length).
  apply (proj1 (NoDup_nth (map s (seq 0 n)) (s 0)) N); [lia..|].
  rewrite !map_nth, !seq_nth by auto. exact E.
Qed.
Lemma shuffles_onto n s i : shuffles n s -> i < n -> exists j, j < n /\ s j = i.
Proof.
  intros P H. assert (I : In i (map s (seq 0 n))) by (apply (Permutation_in _ (Permutation_sym P)), in_seq; lia).
  apply in_map_iff in I as (j & E & J). apply in_seq in J. exists j. split; [lia|exact E].
Qed.

Lemma total_seq m x : length x = length m ->
  total m x = qsum (map (fun i => if nth i x false then nth i m 0%Qc else 0%Qc) (seq 0 (length m))).
Proof.
  revert x. induction m as [|a m IH]; intros [|b x] L; cbn in L; try lia; [reflexivity|].
  cbn [total length seq map]. rewrite qsum_cons. cbn [nth]. rewrite <- seq_shift, map_map, IH by lia. reflexivity.
Qed.
Lemma nat_sum_perm l l' : Permutation l l' -> list_sum l = list_sum l'.
Proof. unfold list_sum. induction 1; cbn [fold_right] in *; lia. Qed.
Lemma weight_seq w x : length x = length w ->
  weight w x = list_sum (map (fun i => if nth i x false then nth i w 0 else 0) (seq 0 (length w))).
Proof.
  revert x. induction w as [|a w IH]; intros [|b x] L; cbn in L; try lia; [reflexivity|].
  cbn [weight length seq map nth]. rewrite <- seq_shift, map_map, IH by lia. reflexivity.
Qed.
Lemma ones_weight x : ones x = weight (repeat 1 (length x)) x.
Proof. induction x as [|b x IH]; cbn [length repeat weight]; [reflexivity|]. rewrite ones_cons, IH. reflexivity. Qed.

Definition reordered {A} (n : nat) (s : nat -> nat) (d : A) (a a' : list A) : Prop :=
  length a = n /\ length a' = n /\ forall i, i < n -> nth i a' d = nth (s i) a d.

Lemma total_reordered n s m m' x x' : shuffles n s -> reordered n s 0%Qc m m' -> reordered n s false x x' ->
  total m' x' = total m x.
Proof.
  intros P (L1 & L1' & E1) (L2 & L2' & E2). rewrite !total_seq by lia. rewrite L1, L1'.
  transitivity (qsum (map (fun i => if nth i x false then nth i m 0%Qc else 0%Qc) (map s (seq 0 n)))).
  - rewrite map_map. f_equal. apply map_ext_in. intros i Hi. apply in_seq in Hi. rewrite E1, E2 by lia. reflexivity.
  - apply qsum_perm, Permutation_map, P.
Qed.
Lemma weight_reordered n s m m' x x' : shuffles n s -> reordered n s 0 m m' -> reordered n s false x x' ->
  weight m' x' = weight m x.
Proof.
  intros P (L1 & L1' & E1) (L2 & L2' & E2). rewrite !weight_seq by lia. rewrite L1, L1'.
  transitivity (list_sum (map (fun i => if nth i x false then nth i m 0 else 0) (map s (seq 0 n)))).
  - rewrite map_map. f_equal. apply map_ext_in. intros i Hi. apply in_seq in Hi. rewrite E1, E2 by lia. reflexivity.
  - apply nat_sum_perm, Permutation_map, P.
Qed.
Lemma nth_repeat_lt {A} (a : A) n i d : i < n -> nth i (repeat a n) d = a.
Proof. revert i. induction n; intros [|i] H; cbn; try lia; auto. apply IHn. lia. Qed.
Lemma ones_reordered n s x x' : shuffles n s -> reordered n s false x x' -> ones x' = ones x.
Proof.
  intros P R. pose proof R as (L & L' & _). rewrite !ones_weight, L, L'. apply (weight_reordered n s); auto.
  split; [apply repeat_length|]. split; [apply repeat_length|]. intros i Hi.
  rewrite !nth_repeat_lt; auto using shuffles_lt.
Qed.

(** every configuration has a reordering, and is the reordering of one *)
Lemma reorder_ex {A} n s (d : A) x : length x = n -> exists x', reordered n s d x x'.
Proof.
  intros L. exists (map (fun i => nth (s i) x d) (seq 0 n)). split; [exact L|].
  split; [rewrite map_length; apply seq_length|]. intros i Hi.
  rewrite (nth_indep _ d (nth (s 0) x d)) by (rewrite map_length, seq_length; exact Hi).
  rewrite (map_nth (fun i => nth (s i) x d)), seq_nth by exact Hi. reflexivity.
Qed.
Lemma inverse_ex n s : shuffles n s -> exists r, shuffles n r /\ forall i, i < n -> s (r i) = i /\ r (s i) = i.
Proof.
  intros P. set (r := fun i => match find (fun j => s j =? i) (seq 0 n) with Some j => j | None => 0 end).
  assert (Q : forall i, i < n -> r i < n /\ s (r i) = i).
  { intros i Hi. unfold r. destruct (find _ _) as [j|] eqn:F.
    - apply find_some in F as (J & E). apply in_seq in J. apply Nat.eqb_eq in E. split; [lia|exact E].
    - destruct (shuffles_onto n s i P Hi) as (j & Hj & E). exfalso.
      apply (find_none _ _ F j) in Hj as X || (assert (X : (s j =? i) = false) by (apply (find_none _ _ F), in_seq; lia)).
      apply Nat.eqb_neq in X. contradiction. }
  exists r. assert (I : forall i, i < n -> s (r i) = i /\ r (s i) = i).
  { intros i Hi. split; [apply Q, Hi|]. destruct (Q (s i)) as (H1 & H2); [apply shuffles_lt; auto|].
    apply (shuffles_inj n s); auto. }
  split; [|exact I]. apply NoDup_Permutation; [|apply seq_NoDup|].
  - apply (NoDup_nth _ (r 0)). rewrite map_length, seq_length. intros i j Hi Hj E.
    rewrite !map_nth, !seq_nth in E by auto. cbn in E. destruct (I i Hi), (I j Hj). congruence.
  - intros i. rewrite in_map_iff, in_seq. split.
    + intros (j & <- & J). apply in_seq in J. destruct (Q j); lia.
    + intros H. exists (s i). split; [apply I; lia|]. apply in_seq. pose proof (shuffles_lt n s i P). lia.
Qed.
Lemma reordered_inv {A} n s r (d : A) x x' : shuffles n r -> (forall i, i < n -> s (r i) = i) ->
  reordered n s d x x' -> reordered n r d x' x.
Proof.
  intros R I (L & L' & E). split; [exact L'|]. split; [exact L|]. intros i Hi.
  rewrite E by (apply shuffles_lt; auto). now rewrite I.
Qed.

Lemma minsum_reordered n s (al al' : list bool -> Prop) m m' i v : shuffles n s -> reordered n s 0%Qc m m' ->
  (forall x x', reordered n s false x x' -> (al x <-> al' x')) -> i < n ->
  minsum_message al m (s i) v -> minsum_message al' m' i v.
Proof.
  intros P M H Hi (v1 & v0 & B1 & B0 & E). exists v1, v0.
  assert (G : forall b w, best al m (s i) b w -> best al' m' i b w).
  { intros b w. unfold best. intros B. eapply is_min_of_ext; [|exact B]. intros q.
    pose proof M as (Lm & Lm' & Em). destruct (inverse_ex n s P) as (r & Pr & Ir).
    assert (K : forall x x', reordered n s false x x' -> al x /\ nth_error x (s i) = Some b /\ q = rest (s i) m x <->
      al' x' /\ nth_error x' i = Some b /\ q = rest i m' x').
    { intros x x' X. pose proof X as (L & L' & Ex). rewrite (H x x' X). unfold rest.
      rewrite (total_reordered n s m m' x x' P M X), (Em i Hi), (Ex i Hi).
      assert (N : nth_error x (s i) = Some b <-> nth_error x' i = Some b); [|rewrite N; reflexivity].
      pose proof (shuffles_lt n s i P Hi) as Hs.
      rewrite (nth_error_nth' x false) by lia. rewrite (nth_error_nth' x' false) by lia. now rewrite (Ex i Hi). }
    split.
    - intros (x' & L & A). destruct (reorder_ex n r false x') as (x & X); [lia|].
      assert (Y : reordered n s false x x').
      { eapply reordered_inv; [exact P| |exact X]. intros j Hj. apply Ir. exact Hj. }
      exists x. split; [destruct Y; lia|]. apply (K x x' Y). exact A.
    - intros (x & L & A). destruct (reorder_ex n s false x) as (x' & X); [lia|].
      exists x'. split; [destruct X as (_ & ? & _); lia|]. apply (K x x' X). exact A. }
  auto.
Qed.
