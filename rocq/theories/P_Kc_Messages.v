(** * Bounds on the messages of departments, teams and projects. *)
From Verif Require Import Num NumFacts Arr ArrFacts Spec SpecRun MinSum MinSumFacts P_Kc_Trellis.
From Verif Require Import P_Ksat P_PyRef_Ksat P_Assign P_Tsp_Assign P_Kc_Dual.
Local Open Scope nat_scope.

(** ** Configurations as sets *)
Lemma config_set (l : list nat) (c : list bool) : NoDup l -> length c = length l -> exists s, c = map s l.
Proof.
  intros N. revert c. induction N as [|x l Nx N IH]; intros [|b c] L; try discriminate.
  - exists (fun _ => false). reflexivity.
  - injection L as L. destruct (IH c L) as (s & ->). exists (fun y => if y =? x then b else s y). cbn [map].
    rewrite Nat.eqb_refl. f_equal. apply map_ext_in. intros y I. destruct (Nat.eqb_spec y x) as [->|_]; [contradiction|reflexivity].
Qed.
Definition cost (f : nat -> Qc) (l : list nat) (s : nat -> bool) : Qc := qsum (map (fun y => if s y then f y else 0%Qc) l).
Definition load (v : nat -> nat) (l : list nat) (s : nat -> bool) : nat := list_sum (map (fun y => if s y then v y else 0) l).
Lemma total_cost f l s : total (map f l) (map s l) = cost f l s.
Proof. unfold cost. induction l as [|y l IH]; [reflexivity|]. cbn [map total]. now rewrite qsum_cons, IH. Qed.
Lemma weight_load v l s : weight (map v l) (map s l) = load v l s.
Proof. unfold load. induction l as [|y l IH]; [reflexivity|]. cbn [map weight]. now rewrite sum_cons, IH. Qed.
Definition put (s : nat -> bool) (x : nat) (b : bool) : nat -> bool := fun y => if y =? x then b else s y.
Lemma put_same s x b : put s x b x = b.
Proof. unfold put. now rewrite Nat.eqb_refl. Qed.
Lemma put_other s x b y : y <> x -> put s x b y = s y.
Proof. intros N. unfold put. now rewrite (proj2 (Nat.eqb_neq _ _) N). Qed.
Lemma cost_put f l s x b : NoDup l -> In x l ->
  cost f l (put s x b) = (cost f l s + (if b then f x else 0) - (if s x then f x else 0))%Qc.
Proof.
  intros N. unfold cost. induction N as [|y l Ny N IH]; [intros []|]. cbn [map In]. rewrite !qsum_cons. intros [->|I].
  - rewrite put_same. rewrite (map_ext_in (fun y => if put s x b y then f y else 0%Qc) (fun y => if s y then f y else 0%Qc)); [ring|].
    intros y I. rewrite put_other; [reflexivity|]. intros ->. contradiction.
  - rewrite (IH I), put_other by (intros ->; contradiction). ring.
Qed.
Lemma load_put v l s x b : NoDup l -> In x l ->
  load v l (put s x b) + (if s x then v x else 0) = load v l s + (if b then v x else 0).
Proof.
  intros N. unfold load. induction N as [|y l Ny N IH]; [intros []|]. cbn [map In]. rewrite !sum_cons. intros [->|I].
  - rewrite put_same. rewrite (map_ext_in (fun y => if put s x b y then v y else 0) (fun y => if s y then v y else 0)); [lia|].
    intros y I. rewrite put_other; [reflexivity|]. intros ->. contradiction.
  - specialize (IH I). rewrite put_other by (intros ->; contradiction). lia.
Qed.
Lemma load_mono v l s s' : (forall y, In y l -> s y = true -> s' y = true) -> load v l s <= load v l s'.
Proof.
  unfold load. induction l as [|y l IH]; intros H; [reflexivity|]. cbn [map]. rewrite !sum_cons.
  assert (A : list_sum (map (fun y => if s y then v y else 0) l) <= list_sum (map (fun y => if s' y then v y else 0) l))
    by (apply IH; intros; apply H; auto; now right).
  pose proof (H y (or_introl eq_refl)). destruct (s y), (s' y); lia || (specialize (H0 eq_refl); discriminate).
Qed.
Lemma find_extra l (s s' : nat -> bool) : (exists y, In y l /\ s y = true /\ s' y = false) \/ (forall y, In y l -> s y = true -> s' y = true).
Proof.
  destruct (existsb (fun y => s y && negb (s' y)) l) eqn:E.
  - left. apply existsb_exists in E as (y & I & E). apply andb_prop in E as (A & B). apply negb_true_iff in B. eauto.
  - right. intros y I A. apply not_true_iff_false in E. destruct (s' y) eqn:B; [reflexivity|]. exfalso. apply E, existsb_exists.
    exists y. now rewrite A, B.
Qed.

(** ** Departments *)
Section Department.
Variables (l : list nat) (f : nat -> Qc) (v : nat -> nat) (cap i x : nat) (q : Qc).
Hypothesis N : NoDup l.
Hypothesis Hx : nth_error l i = Some x.
Hypothesis Hm : minsum_message (within (map v l) cap) (map f l) i (Fin q).
Lemma x_in : In x l.
Proof. eapply nth_error_In, Hx. Qed.
Lemma best_set b r : best (within (map v l) cap) (map f l) i b (Fin r) ->
  exists s, s x = b /\ load v l s <= cap /\ r = (cost f l s - (if b then f x else 0))%Qc /\
    forall s', s' x = b -> load v l s' <= cap -> (cost f l s <= cost f l s')%Qc.
Proof.
  assert (Rest : forall s, rest i (map f l) (map s l) = (cost f l s - (if s x then f x else 0))%Qc).
  { intros s. unfold rest. rewrite total_cost.
    assert (Li : i < length l) by (apply nth_error_Some; congruence).
    rewrite (nth_error_nth (map s l) i false (x := s x)) by (rewrite nth_error_map, Hx; reflexivity).
    rewrite (nth_error_nth (map f l) i 0%Qc (x := f x)) by (rewrite nth_error_map, Hx; reflexivity). reflexivity. }
  intros ((c & L & Al & Nb & ->) & Le). rewrite map_length in L.
  destruct (config_set l c N L) as (s & ->). unfold within in Al. rewrite weight_load in Al.
  rewrite nth_error_map, Hx in Nb. injection Nb as Nb.
  exists s. split; [exact Nb|]. split; [exact Al|]. split; [rewrite Rest, Nb; reflexivity|].
  intros s' E' Al'. specialize (Le (rest i (map f l) (map s' l))). rewrite !Rest, Nb, E' in Le.
  assert (X : (cost f l s - (if b then f x else 0) <= cost f l s' - (if b then f x else 0))%Qc); [|qlra].
  apply Le. exists (map s' l). rewrite !map_length. split; [reflexivity|]. split; [unfold within; now rewrite weight_load|].
  rewrite nth_error_map, Hx, Rest. cbn [option_map]. rewrite E'. auto.
Qed.
Lemma message_sets : exists s1 s0, s1 x = true /\ s0 x = false /\ load v l s1 <= cap /\ load v l s0 <= cap /\
  q = (cost f l s1 - f x - cost f l s0)%Qc /\
  (forall s, s x = true -> load v l s <= cap -> (cost f l s1 <= cost f l s)%Qc) /\
  (forall s, s x = false -> load v l s <= cap -> (cost f l s0 <= cost f l s)%Qc).
Proof.
  destruct Hm as (v1 & v0 & B1 & B0 & E). destruct v1 as [r1| | |], v0 as [r0| | |]; try discriminate.
  cbn in E. injection E as E. destruct (best_set true r1 B1) as (s1 & S1 & L1 & -> & M1).
  destruct (best_set false r0 B0) as (s0 & S0 & L0 & -> & M0).
  exists s1, s0. repeat split; auto. rewrite E. ring.
Qed.
Lemma department_nonneg : (0 <= q)%Qc.
Proof.
  destruct message_sets as (s1 & s0 & S1 & S0 & L1 & L0 & -> & M1 & M0).
  pose proof (load_put v l s1 x false N x_in) as A. rewrite S1 in A.
  specialize (M0 (put s1 x false) (put_same _ _ _) ltac:(lia)). rewrite cost_put, S1 in M0 by (auto; apply x_in). qlra.
Qed.
Lemma department_slack : list_sum (map v l) <= cap -> q = 0%Qc.
Proof.
  intros Sl. assert (All : forall s, load v l s <= cap).
  { intros s. eapply Nat.le_trans; [apply (load_mono v l s (fun _ => true)); auto|]. exact Sl. }
  apply Qcle_antisym; [|apply department_nonneg].
  destruct message_sets as (s1 & s0 & S1 & S0 & L1 & L0 & -> & M1 & M0).
  specialize (M1 (put s0 x true) (put_same _ _ _) (All _)). rewrite cost_put, S0 in M1 by (auto; apply x_in). qlra.
Qed.
Variables (u : nat) (C : nat -> bool).
Hypothesis Hu : forall y, In y l -> v y = u.
(** [C] leaves no room for [x] *)
Lemma department_lower : C x = false -> cap < load v l C + u -> exists y, In y l /\ C y = true /\ (- f y <= q)%Qc.
Proof.
  intros Cx Full. destruct message_sets as (s1 & s0 & S1 & S0 & L1 & L0 & -> & M1 & M0).
  destruct (find_extra l C s1) as [(y & I & Cy & Sy)|H].
  - exists y. split; [exact I|]. split; [exact Cy|]. assert (Nyx : y <> x) by (intros ->; congruence).
    pose proof (load_put v l s1 x false N x_in) as A. rewrite S1 in A.
    pose proof (load_put v l (put s1 x false) y true N I) as B. rewrite put_other, Sy in B by auto.
    rewrite !Hu in A, B by auto using x_in.
    assert (X : (cost f l s0 <= cost f l (put (put s1 x false) y true))%Qc).
    { apply M0; [rewrite put_other by auto; apply put_same|lia]. }
    rewrite cost_put, put_other, Sy, cost_put, S1 in X by (auto; apply x_in). qlra.
  - exfalso. pose proof (load_put v l C x true N x_in) as A. rewrite Cx, Hu in A by apply x_in.
    assert (X : load v l (put C x true) <= load v l s1); [|lia].
    apply load_mono. intros y I. unfold put. destruct (Nat.eqb_spec y x) as [->|_]; auto.
Qed.
(** [C] is within the capacity *)
Lemma department_upper : C x = true -> load v l C <= cap -> (q <= 0)%Qc \/ exists y, In y l /\ C y = false /\ (q <= - f y)%Qc.
Proof.
  intros Cx Fit. destruct message_sets as (s1 & s0 & S1 & S0 & L1 & L0 & -> & M1 & M0).
  pose proof (load_put v l s0 x true N x_in) as A. rewrite S0, Hu in A by apply x_in.
  destruct (Nat.le_gt_cases (load v l s0 + u) cap) as [Le|Gt].
  - left. specialize (M1 (put s0 x true) (put_same _ _ _) ltac:(lia)). rewrite cost_put, S0 in M1 by (auto; apply x_in). qlra.
  - right. destruct (find_extra l s0 C) as [(y & I & Sy & Cy)|H].
    + exists y. split; [exact I|]. split; [exact Cy|]. assert (Nyx : y <> x) by (intros ->; congruence).
      pose proof (load_put v l (put s0 x true) y false N I) as B. rewrite put_other, Sy, Hu in B by auto.
      assert (X : (cost f l s1 <= cost f l (put (put s0 x true) y false))%Qc).
      { apply M1; [rewrite put_other by auto; apply put_same|lia]. }
      rewrite cost_put, put_other, Sy, cost_put, S0 in X by (auto; apply x_in). qlra.
    + exfalso. assert (X : load v l (put s0 x true) <= load v l C); [|lia].
      apply load_mono. intros y I. unfold put. destruct (Nat.eqb_spec y x) as [->|_]; auto.
Qed.
End Department.

(** ** Projects and teams *)
Lemma nmin_nmins a L : exists m, nmin (Fin a) (nmins (map Fin L)) = Fin m /\ (m <= a)%Qc /\ (forall y, In y L -> (m <= y)%Qc) /\ (m = a \/ In m L).
Proof.
  pose proof (nmins_is_min L) as M. destruct (nmins (map Fin L)) as [r| | |]; cbn in M; try contradiction.
  - destruct M as (I & M). unfold nmin. cbn. destruct (qltb_spec r a) as [Lt|Le].
    + exists r. split; [reflexivity|]. split; [qlra|]. auto.
    + exists a. split; [reflexivity|]. split; [apply Qcle_refl|]. split; [|now left]. intros y Iy. specialize (M y Iy). qlra.
  - exists a. split; [reflexivity|]. split; [apply Qcle_refl|]. split; [|now left]. intros y Iy. destruct (M y Iy).
Qed.
Lemma nmins_notnan_Fin L : notnan (nmins (map Fin L)).
Proof. apply nmins_notnan, Forall_forall. intros y I. apply in_map_iff in I as (r & <- & _). discriminate || exact I. Qed.
Lemma project_facts (f : nat -> Qc) l pos i d : NoDup l -> nth_error l pos = Some i ->
  minsum_message at_most_one (map f l) pos (Fin d) ->
  (0 <= d)%Qc /\ (forall j, In j l -> j <> i -> (- f j <= d)%Qc) /\ (d = 0%Qc \/ exists j, In j l /\ j <> i /\ d = (- f j)%Qc).
Proof.
  intros N H M. assert (Hp : pos < length (map f l)) by (rewrite map_length; apply nth_error_Some; congruence).
  pose proof (minsum_message_unique _ _ _ _ _ M (at_most_one_message _ pos Hp)) as Q.
  rewrite remove_at_map in Q. rewrite nmin_comm in Q by (apply nmins_notnan_Fin || discriminate || exact I).
  destruct (nmin_nmins 0 (map f (remove_at pos l))) as (m & E & M0 & M1 & M2). unfold n0 in Q.
  rewrite E in Q. cbn in Q. injection Q as ->.
  split; [qlra|]. split.
  - intros j Ij Nj. assert (X : (m <= f j)%Qc); [|qlra]. apply M1, in_map, (in_remove_at _ _ i); auto.
  - destruct M2 as [->|I]; [left; ring|]. right. apply in_map_iff in I as (j & <- & I). apply (in_remove_at _ _ i) in I; auto.
    exists j. tauto.
Qed.
Lemma team_project_facts (f : nat -> Qc) t l pos i d : NoDup l -> nth_error l pos = Some i ->
  minsum_message coupled (t :: map f l) (S pos) (Fin d) ->
  (t <= d)%Qc /\ (forall j, In j l -> j <> i -> (- f j <= d)%Qc) /\ (d = t \/ exists j, In j l /\ j <> i /\ d = (- f j)%Qc).
Proof.
  intros N H M. assert (Hp : pos < length (map f l)) by (rewrite map_length; apply nth_error_Some; congruence).
  pose proof (minsum_message_unique _ _ _ _ _ M (coupled_message t _ pos Hp)) as Q.
  rewrite map_map, remove_at_map in Q. rewrite nmin_comm in Q by (apply nmins_notnan_Fin || discriminate || exact I).
  destruct (nmin_nmins 0 (map (fun x => (f x + t)%Qc) (remove_at pos l))) as (m & E & M0 & M1 & M2).
  unfold n0 in Q.
  rewrite E in Q. cbn in Q. injection Q as ->.
  split; [qlra|]. split.
  - intros j Ij Nj. assert (X : (m <= f j + t)%Qc); [|qlra]. apply (M1 (f j + t)%Qc), (in_map (fun x => (f x + t)%Qc)), (in_remove_at _ _ i); auto.
  - destruct M2 as [->|I]; [left; ring|]. right. apply in_map_iff in I as (j & <- & I). apply (in_remove_at _ _ i) in I; auto.
    exists j. split; [tauto|]. split; [tauto|]. ring.
Qed.
Lemma team_facts t es v o : minsum_message coupled (t :: es) 0 v -> Fin o = nmin (zn 1000000) v ->
  (forall y, In y es -> (o <= y)%Qc) /\ (o = zq 1000000 \/ In o es).
Proof.
  intros M E. pose proof (minsum_message_unique _ _ _ _ _ M (coupled_team_message t es)) as ->.
  destruct (nmin_nmins (zq 1000000) es) as (m & E' & M0 & M1 & M2).
  unfold zn in E. rewrite E' in E. injection E as ->. auto.
Qed.
