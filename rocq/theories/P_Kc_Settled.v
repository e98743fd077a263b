(** * Settled messages of KC-MWM: selections. *)
From Coq Require Import Permutation.
From Verif Require Import Num NumFacts Spec SpecRun SpecGraph SpecCover SpecSelection SpecSettled MinSum MinSumFacts P_Kc_Trellis.
From Verif Require Import P_Ksat P_PyRef_Ksat P_Assign P_Tsp_Assign P_Kc_Dual P_Kc_Messages P_Settled P_Tsp_Settled.
Local Open Scope nat_scope.

Inductive kvar := Team (x : nat) | Pair (p x : nat).
Inductive kfac := Coup (x : nat) | Dept (d : nat) | Proj (p : nat).
Lemma kvar_eq : forall a b : kvar, {a = b} + {a <> b}.
Proof. decide equality; apply Nat.eq_dec. Qed.

Lemma pick_in F x : pick F x = true <-> exists p, In (p, x) F.
Proof.
  unfold pick. rewrite existsb_exists. split.
  - intros ((p, y) & I & E). apply Nat.eqb_eq in E. cbn in E. subst y. eauto.
  - intros (p & I). exists (p, x). split; [exact I|apply Nat.eqb_refl].
Qed.
Lemma pick_map F x : pick F x = true <-> In x (map snd F).
Proof. rewrite pick_in, in_map_iff. split; [intros (p & I); exists (p, x); auto|intros ((p, y) & <- & I); eauto]. Qed.
Lemma has_in F e : has_pair F e = true <-> In e F.
Proof.
  unfold has_pair. rewrite existsb_exists. split.
  - intros (f & I & E). apply andb_prop in E as (E1 & E2). apply Nat.eqb_eq in E1, E2. destruct e, f; cbn in *; subst. exact I.
  - intros I. exists e. rewrite !Nat.eqb_refl. auto.
Qed.
Lemma NoDup_map {A B} (f : A -> B) l : (forall a b, In a l -> In b l -> f a = f b -> a = b) -> NoDup l -> NoDup (map f l).
Proof.
  intros Hf. induction l as [|a l IH]; cbn; intro N; [constructor|]. inversion N; subst. constructor.
  - intro J. apply in_map_iff in J as (x & Q & J). assert (x = a) by (symmetry in Q; symmetry; apply Hf; [now left|now right|exact Q]). now subst.
  - apply IH; auto. intros x y Ix Iy. apply Hf; now right.
Qed.
Lemma NoDup_concat2 {A} (l m : list A) : NoDup l -> NoDup m -> (forall a, In a l -> ~ In a m) -> NoDup (l ++ m).
Proof.
  intros Nl Nm H. induction l as [|a l IH]; cbn; auto. inversion Nl; subst. constructor.
  - rewrite in_app_iff. intros [J|J]; [auto|]. apply (H a); [now left|auto].
  - apply IH; auto. intros; apply H; now right.
Qed.
Lemma NoDup_grid P T : NoDup (list_prod (seq 0 P) (seq 0 T)).
Proof.
  generalize (seq_NoDup P 0). generalize (seq 0 P) as l. induction l as [|p l IH]; cbn; intro N; [constructor|]. inversion N; subst.
  apply NoDup_concat2; auto.
  - apply NoDup_map; [congruence|apply seq_NoDup].
  - intros e I J. apply in_map_iff in I as (x & <- & _). apply in_prod_iff in J as (J & _). contradiction.
Qed.
Lemma nth_error_seq_lt n k : k < n -> nth_error (seq 0 n) k = Some k.
Proof. intro H. rewrite (nth_error_nth' _ 0) by now rewrite seq_length. now rewrite seq_nth. Qed.
(** the message to the first variable does not depend on what it sent *)
Lemma message_first al a a' l v : minsum_message al (a :: l) 0 v -> minsum_message al (a' :: l) 0 v.
Proof.
  intros (v1 & v0 & B1 & B0 & ->). exists v1, v0. split; [|split; [|reflexivity]].
  all: unfold best in *.
  all: assert (Eq : forall b q, (exists x, length x = length (a :: l) /\ al x /\ nth_error x 0 = Some b /\ q = rest 0 (a :: l) x) <->
    (exists x, length x = length (a' :: l) /\ al x /\ nth_error x 0 = Some b /\ q = rest 0 (a' :: l) x)).
  1, 3: intros b q; split; intros (x & L & Al & G & Q); exists x; (split; [exact L|]); (split; [exact Al|]); (split; [exact G|]);
    destruct x as [|z x]; try discriminate; unfold rest in *; cbn [total nth] in *; destruct z; rewrite Q; ring.
  all: unfold is_min_of in *.
  - destruct v1; auto.
    + destruct B1 as (B & M). split; [now apply Eq|]. intros r Hr. apply M. now apply Eq.
    + intros r Hr. apply (B1 r). now apply Eq.
  - destruct v0; auto.
    + destruct B0 as (B & M). split; [now apply Eq|]. intros r Hr. apply M. now apply Eq.
    + intros r Hr. apply (B0 r). now apply Eq.
Qed.

Lemma ones_le {A} (y : A -> bool) l : NoDup l -> (forall a b, In a l -> In b l -> y a = true -> y b = true -> a = b) -> ones (map y l) <= 1.
Proof.
  intros N H. rewrite ones_map. assert (Nf : NoDup (filter y l)) by now apply NoDup_filter.
  destruct (filter y l) as [|a [|b r]] eqn:Q; cbn; try lia. exfalso.
  assert (Ia : In a (filter y l)) by (rewrite Q; now left). assert (Ib : In b (filter y l)) by (rewrite Q; right; now left).
  apply filter_In in Ia as (Ia & Ya). apply filter_In in Ib as (Ib & Yb). inversion Nf as [|? ? X _]. apply X. left. symmetry. now apply H.
Qed.
Lemma ones_unique {A} (y : A -> bool) l a b : ones (map y l) <= 1 -> In a l -> In b l -> y a = true -> y b = true -> a = b.
Proof.
  rewrite ones_map. intros H Ia Ib Ya Yb. assert (Fa : In a (filter y l)) by now apply filter_In. assert (Fb : In b (filter y l)) by now apply filter_In.
  destruct (filter y l) as [|c [|c' r]]; [destruct Fa| |cbn in H; lia]. destruct Fa as [<-|[]], Fb as [<-|[]]. reflexivity.
Qed.
Lemma pair_project (F : list (nat * nat)) p x y : NoDup (map fst F) -> In (p, x) F -> In (p, y) F -> x = y.
Proof. intros N I J. assert (Q : (p, x) = (p, y)) by (eapply (nodup_key fst); eauto). congruence. Qed.
Lemma pair_team (F : list (nat * nat)) p q x : NoDup (map snd F) -> In (p, x) F -> In (q, x) F -> p = q.
Proof. intros N I J. assert (Q : (p, x) = (q, x)) by (eapply (nodup_key snd); eauto). congruence. Qed.
Lemma load_filter v l s : load v l s = list_sum (map v (filter s l)).
Proof. unfold load. induction l as [|y l IH]; [reflexivity|]. cbn [map filter]. rewrite sum_cons, IH. destruct (s y); [cbn [map]; now rewrite sum_cons|reflexivity]. Qed.
Lemma sum_perm_nat (f : nat -> nat) l l' : Permutation l l' -> list_sum (map f l) = list_sum (map f l').
Proof. unfold list_sum. induction 1; cbn [map fold_right]; lia. Qed.
Lemma filter_map_some {A} (g : nat -> A) (p : A -> bool) (q : nat -> bool) l : (forall a, In a l -> p (g a) = q a) ->
  filter p (map g l) = map g (filter q l).
Proof.
  intro H. induction l as [|a l IH]; [reflexivity|]. cbn [map filter]. rewrite (H a) by now left.
  destruct (q a); cbn [map]; rewrite IH; auto; intros; apply H; now right.
Qed.
Lemma sum_app {A} (f : A -> Qc) l l' : qsum (map f (l ++ l')) = (qsum (map f l) + qsum (map f l'))%Qc.
Proof. unfold qsum. induction l as [|a l IH]; cbn [map fold_right app]; [ring|]. rewrite IH. ring. Qed.

Section Call.
Variables (T D P : nat) (W : list (list nat)) (caps : list nat) (R : list (list Qc)) (reward : list Qc).
Hypothesis HT : 0 < T.
Hypothesis Hcaps : length caps = D.
Hypothesis HWl : length W = D.
Hypothesis Hpart : forall d, d < D -> participants T (nth d W []) <> [].
Hypothesis Hwide : forall d x, takes_part W d x = true -> x < T.
Hypothesis Htwo : forall x, length (filter (fun d => takes_part W d x) (seq 0 D)) <= 2.

Definition grid : list (nat * nat) := list_prod (seq 0 P) (seq 0 T).
Definition kpair (e : nat * nat) : kvar := Pair (fst e) (snd e).
Definition kvars : list kvar := map Team (seq 0 T) ++ map kpair grid.
Definition kfacs : list kfac := map Coup (seq 0 T) ++ map Dept (seq 0 D) ++ map Proj (seq 0 P).
Definition kscope (c : kfac) : list kvar :=
  match c with
  | Coup x => Team x :: map (fun p => Pair p x) (seq 0 P)
  | Dept d => map Team (participants T (nth d W []))
  | Proj p => map (Pair p) (seq 0 T)
  end.
Definition kallow (c : kfac) : list bool -> Prop :=
  match c with
  | Coup _ => coupled
  | Dept d => within (map (fun x => nth x (nth d W []) 0) (participants T (nth d W []))) (nth d caps 0)
  | Proj _ => at_most_one
  end.
Lemma in_grid p x : In (p, x) grid <-> p < P /\ x < T.
Proof. unfold grid. rewrite in_prod_iff, !in_seq. lia. Qed.
Lemma in_kvars v : In v kvars <-> match v with Team x => x < T | Pair p x => p < P /\ x < T end.
Proof.
  unfold kvars. rewrite in_app_iff, !in_map_iff. split.
  - intros [(x & <- & I)|((p, x) & <- & I)]; [apply in_seq in I; lia|now apply in_grid].
  - destruct v as [x|p x]; intro H; [left; exists x; split; [reflexivity|apply in_seq; lia]|right; exists (p, x); split; [reflexivity|now apply in_grid]].
Qed.
Lemma in_kfacs c : In c kfacs <-> match c with Coup x => x < T | Dept d => d < D | Proj p => p < P end.
Proof.
  unfold kfacs. rewrite !in_app_iff, !in_map_iff. split.
  - intros [(u & <- & I)|[(u & <- & I)|(u & <- & I)]]; apply in_seq in I; lia.
  - intro H. destruct c as [u|u|u]; [left|right; left|right; right]; exists u; (split; [reflexivity|apply in_seq; lia]).
Qed.
Lemma kvars_nodup : NoDup kvars.
Proof.
  apply NoDup_concat2.
  - apply NoDup_map; [congruence|apply seq_NoDup].
  - apply NoDup_map; [|apply NoDup_grid]. intros (p, x) (q, y) _ _ Q. unfold kpair in Q. cbn in Q. congruence.
  - intros a I J. apply in_map_iff in I as (x & <- & _). apply in_map_iff in J as (z & Q & _). discriminate.
Qed.
Lemma kfacs_nodup : NoDup kfacs.
Proof.
  unfold kfacs. repeat apply NoDup_concat2; try (apply NoDup_map; [congruence|apply seq_NoDup]).
  - intros a I J. apply in_map_iff in I as (x & <- & _). apply in_map_iff in J as (z & Q & _). discriminate.
  - intros a I J. apply in_map_iff in I as (x & <- & _). apply in_app_iff in J as [J|J]; apply in_map_iff in J as (z & Q & _); discriminate.
Qed.
Lemma in_part d x : d < D -> In x (participants T (nth d W [])) <-> takes_part W d x = true.
Proof.
  intro Hd. unfold participants. rewrite filter_In, in_seq. unfold takes_part. split; [tauto|]. intro H. split; [|exact H].
  pose proof (Hwide d x H). lia.
Qed.
Lemma part_nodup d : NoDup (participants T (nth d W [])).
Proof. unfold participants. apply NoDup_filter, seq_NoDup. Qed.
Lemma kscope_in c v : In c kfacs -> (In v (kscope c) <-> In v kvars /\
  match c, v with Coup x, Team y => x = y | Coup x, Pair _ y => x = y | Dept d, Team x => takes_part W d x = true
  | Proj p, Pair q _ => p = q | _, _ => False end).
Proof.
  rewrite in_kfacs, in_kvars. intro Hc. destruct c as [x|d|p]; cbn [kscope].
  - cbn [In]. rewrite in_map_iff. split.
    + intros [<-|(p & <- & I)]; [auto|]. apply in_seq in I. split; [lia|auto].
    + destruct v as [y|q y]; intros (H & ->); [now left|right]. exists q. split; [reflexivity|apply in_seq; lia].
  - rewrite in_map_iff. split.
    + intros (x & <- & I). apply in_part in I; auto. split; [eauto|auto].
    + destruct v as [y|q y]; intros (H & K); [|destruct K]. exists y. split; [reflexivity|now apply in_part].
  - rewrite in_map_iff. split.
    + intros (x & <- & I). apply in_seq in I. split; [lia|auto].
    + destruct v as [y|q y]; intros (H & K); [destruct K|]. subst q. exists y. split; [reflexivity|apply in_seq; lia].
Qed.
Lemma kscope_ok c : In c kfacs -> NoDup (kscope c) /\ incl (kscope c) kvars /\ kscope c <> [].
Proof.
  intro Ic. split; [|split].
  - destruct c as [x|d|p]; cbn [kscope].
    + constructor; [|apply NoDup_map; [congruence|apply seq_NoDup]]. intro I. apply in_map_iff in I as (p & Q & _). discriminate.
    + apply NoDup_map; [congruence|apply part_nodup].
    + apply NoDup_map; [congruence|apply seq_NoDup].
  - intros v I. apply kscope_in in I; tauto.
  - apply in_kfacs in Ic. destruct c as [x|d|p]; cbn [kscope]; [discriminate| |].
    + specialize (Hpart d Ic). destruct (participants T (nth d W [])); [congruence|discriminate].
    + destruct T; [lia|discriminate].
Qed.

(** the constraints of a team and of a pair *)
Lemma inc_team x : x < T ->
  filter (inc kvar_eq kscope (Team x)) kfacs = Coup x :: map Dept (filter (fun d => takes_part W d x) (seq 0 D)).
Proof.
  intro Hx. unfold kfacs. rewrite !filter_app.
  rewrite (filter_map_some Coup _ (Nat.eqb x)), (filter_map_some Dept _ (fun d => takes_part W d x)), (filter_map_some Proj _ (fun _ => false)).
  - rewrite (filter_one x (Nat.eqb x)), (filter_none (fun _ : nat => false)); try apply seq_NoDup; try (apply in_seq; lia); try (intros b _; apply Nat.eqb_eq); auto.
    cbn [map app]. now rewrite app_nil_r.
  - intros p I. apply in_seq in I. apply Bool.not_true_iff_false. rewrite inc_true, kscope_in by (apply in_kfacs; lia). intros (_ & []).
  - intros d I. apply in_seq in I. apply Bool.eq_iff_eq_true. rewrite inc_true, kscope_in, in_kvars by (apply in_kfacs; lia). tauto.
  - intros y I. apply in_seq in I. apply Bool.eq_iff_eq_true. rewrite inc_true, kscope_in, in_kvars, Nat.eqb_eq by (apply in_kfacs; lia). intuition congruence.
Qed.
Lemma inc_pair p x : p < P -> x < T -> filter (inc kvar_eq kscope (Pair p x)) kfacs = [Coup x; Proj p].
Proof.
  intros Hp Hx. unfold kfacs. rewrite !filter_app.
  rewrite (filter_map_some Coup _ (Nat.eqb x)), (filter_map_some Dept _ (fun _ => false)), (filter_map_some Proj _ (Nat.eqb p)).
  - rewrite (filter_one x (Nat.eqb x)), (filter_one p (Nat.eqb p)), (filter_none (fun _ : nat => false)); try apply seq_NoDup; try (apply in_seq; lia); try (intros b _; apply Nat.eqb_eq); auto.
  - intros q I. apply in_seq in I. apply Bool.eq_iff_eq_true. rewrite inc_true, kscope_in, in_kvars, Nat.eqb_eq by (apply in_kfacs; lia). intuition congruence.
  - intros d I. apply in_seq in I. apply Bool.not_true_iff_false. rewrite inc_true, kscope_in by (apply in_kfacs; lia). intros (_ & []).
  - intros y I. apply in_seq in I. apply Bool.eq_iff_eq_true. rewrite inc_true, kscope_in, in_kvars, Nat.eqb_eq by (apply in_kfacs; lia). intuition congruence.
Qed.

(** ** Selections as assignments *)
Definition kof (F : list (nat * nat)) (v : kvar) : bool :=
  match v with Team x => pick F x | Pair p x => has_pair F (p, x) end.

Lemma teams_perm F : matched T P F -> Permutation (filter (pick F) (seq 0 T)) (map snd F).
Proof.
  intros (_ & N & B). apply NoDup_Permutation; [apply NoDup_filter, seq_NoDup|exact N|]. intro x. rewrite filter_In, in_seq, pick_map. split; [tauto|].
  intro I. split; [|exact I]. apply in_map_iff in I as ((p, y) & <- & I). apply B in I. cbn. lia.
Qed.
Lemma pairs_perm F : matched T P F -> Permutation (filter (has_pair F) grid) F.
Proof.
  intros (N & _ & B). apply NoDup_Permutation; [apply NoDup_filter, NoDup_grid|exact (NoDup_map_inv _ _ N)|]. intros (p, x). rewrite filter_In, has_in, in_grid. split; [tauto|].
  intro I. split; [|exact I]. now apply B.
Qed.
Lemma teams_part F d : d < D -> matched T P F ->
  Permutation (filter (pick F) (participants T (nth d W []))) (filter (takes_part W d) (map snd F)).
Proof.
  intros Hd (_ & N & B). apply NoDup_Permutation; [apply NoDup_filter, part_nodup|now apply NoDup_filter|].
  intro x. rewrite !filter_In, in_part, pick_map by auto. tauto.
Qed.
Lemma dept_weight F d : d < D -> matched T P F ->
  load (share W d) (participants T (nth d W [])) (pick F) = list_sum (map (fun e => share W d (snd e)) F).
Proof.
  intros Hd HF. rewrite load_filter, (sum_perm_nat _ _ _ (teams_part F d Hd HF)), <- (map_map snd (share W d)).
  generalize (map snd F). intro l. induction l as [|x l IH]; [reflexivity|]. cbn [map filter]. rewrite sum_cons. unfold takes_part at 1. fold (share W d x).
  destruct (Nat.eqb_spec (share W d x) 0) as [->|Ne]; cbn [negb]; [rewrite IH; reflexivity|]. cbn [map]. now rewrite sum_cons, IH.
Qed.
Lemma kof_allowed F c : matched T P F -> In c kfacs ->
  (forall d, c = Dept d -> list_sum (map (fun e => share W d (snd e)) F) <= nth d caps 0) -> kallow c (map (kof F) (kscope c)).
Proof.
  intros HF Ic Hc. apply in_kfacs in Ic. pose proof HF as (Np & Nt & B). destruct c as [x|d|p]; cbn [kallow kscope].
  - cbn [map kof]. rewrite map_map. unfold coupled. rewrite ones_map. cbn [kof]. destruct (pick F x) eqn:Q.
    + apply pick_in in Q as (p & I). rewrite (filter_one p); [reflexivity|apply seq_NoDup|apply in_seq; specialize (B p x I); lia|].
      intros q _. rewrite has_in. split; [intro J; now apply (pair_team F p q x)|now intros <-].
    + apply Bool.not_true_iff_false in Q. rewrite pick_in in Q.
      rewrite (filter_none (fun p => has_pair F (p, x))); [reflexivity|]. intro q. apply Bool.not_true_iff_false. rewrite has_in. intro J. apply Q. eauto.
  - rewrite map_map. cbn [kof]. unfold within. specialize (Hc d eq_refl). rewrite <- dept_weight in Hc by auto.
    change (fun x => nth x (nth d W []) 0) with (share W d). now rewrite weight_load.
  - rewrite map_map. cbn [kof]. apply ones_le; [apply seq_NoDup|]. intros a b _ _. rewrite !has_in. now apply pair_project.
Qed.
Definition kcost (v : kvar) : Qc := match v with Team x => nth x reward 0%Qc | Pair p x => qat R p x end.
Lemma kof_total F : matched T P F -> total (map kcost kvars) (map (kof F) kvars) = selection_cost R reward F.
Proof.
  intro HF. rewrite total_sum. unfold kvars. rewrite sum_app, !map_map. cbn [kof kcost]. unfold kpair. cbn [kof kcost].
  rewrite <- (sum_filter (fun x => nth x reward 0%Qc) (pick F)), (sum_perm _ _ (Permutation_map _ (teams_perm F HF))).
  rewrite (sum_ext _ (fun e => if has_pair F e then qat R (fst e) (snd e) else 0%Qc)) by (now intros (p, x) _).
  rewrite <- (sum_filter (fun e => qat R (fst e) (snd e)) (has_pair F)), (sum_perm _ _ (Permutation_map _ (pairs_perm F HF))).
  unfold selection_cost, pair_cost. rewrite sum_plus, map_map. reflexivity.
Qed.
(** an assignment allowed by all constraints is a selection *)
Lemma kof_surj (y : kvar -> bool) : (forall c, In c kfacs -> kallow c (map y (kscope c))) ->
  exists F, selection T D P W caps F /\ forall v, In v kvars -> y v = kof F v.
Proof.
  intro H. set (F := filter (fun e => y (kpair e)) grid).
  assert (InF : forall p x, In (p, x) F <-> p < P /\ x < T /\ y (Pair p x) = true).
  { intros p x. unfold F. rewrite filter_In, in_grid. unfold kpair. cbn [fst snd]. tauto. }
  assert (NF : NoDup F) by apply NoDup_filter, NoDup_grid.
  assert (Cp : forall x, x < T -> ones (map (fun p => y (Pair p x)) (seq 0 P)) = if y (Team x) then 1 else 0).
  { intros x Hx. pose proof (H (Coup x)) as A. rewrite in_kfacs in A. specialize (A Hx). cbn [kallow kscope map coupled] in A. now rewrite map_map in A. }
  assert (M : matched T P F).
  { split; [|split].
    - apply NoDup_map; [|exact NF]. intros (p, x) (q, z) I J Q. cbn in Q. subst q. f_equal. apply InF in I as (Hp & Hx & Y), J as (_ & Hz & Y').
      pose proof (H (Proj p)) as A. rewrite in_kfacs in A. specialize (A Hp). cbn [kallow kscope] in A. rewrite map_map in A.
      apply (ones_unique (fun x => y (Pair p x)) (seq 0 T)); auto; apply in_seq; lia.
    - apply NoDup_map; [|exact NF]. intros (p, x) (q, z) I J Q. cbn in Q. subst z. f_equal. apply InF in I as (Hp & Hx & Y), J as (Hq & _ & Y').
      apply (ones_unique (fun p => y (Pair p x)) (seq 0 P)); auto; try (apply in_seq; lia). rewrite Cp by auto. destruct (y (Team x)); lia.
    - intros p x I. apply InF in I. tauto. }
  assert (Y : forall v, In v kvars -> y v = kof F v).
  { intros v I. apply in_kvars in I. apply Bool.eq_iff_eq_true. destruct v as [x|p x]; cbn [kof].
    - rewrite pick_in. specialize (Cp x I). rewrite ones_map in Cp. split.
      + intro Q. rewrite Q in Cp. destruct (filter (fun p => y (Pair p x)) (seq 0 P)) as [|p r] eqn:G; [discriminate|].
        assert (J : In p (filter (fun p => y (Pair p x)) (seq 0 P))) by (rewrite G; now left). apply filter_In in J as (J & Yp). apply in_seq in J.
        exists p. apply InF. repeat split; auto. lia.
      + intros (p & J). apply InF in J as (Hp & _ & Yp). destruct (y (Team x)); [reflexivity|]. exfalso.
        assert (G : In p (filter (fun p => y (Pair p x)) (seq 0 P))) by (apply filter_In; split; [apply in_seq; lia|auto]).
        destruct (filter (fun p => y (Pair p x)) (seq 0 P)); [destruct G|discriminate].
    - rewrite has_in, InF. tauto. }
  exists F. split; [|exact Y]. destruct M as (M1 & M2 & M3). split; [auto|]. split; [auto|]. split; [auto|].
  intros d Hd. rewrite <- dept_weight by (auto; split; auto). pose proof (H (Dept d)) as A. rewrite in_kfacs in A. specialize (A Hd). cbn [kallow kscope] in A.
  rewrite map_map in A. unfold within in A. change (fun x => nth x (nth d W []) 0) with (share W d) in A. rewrite weight_load in A.
  eapply Nat.le_trans; [|exact A]. apply load_mono. intros x I Q. rewrite Y; [exact Q|]. apply in_kvars. apply in_part in I; eauto.
Qed.

(** ** Settled messages *)
Variables (A' Dm' fX : nat -> nat -> Qc) (TO' OT : nat -> Qc) (EO' CE CE' EP PE : nat -> nat -> Qc).
Variables (bT : nat -> Qc) (bP : nat -> nat -> Qc) (e e2 : Qc).
Hypothesis HbT : forall x, x < T -> bT x = (nth x reward 0 + OT x + qsum (map (fun d => fX d x) (seq 0 D)))%Qc.
Hypothesis HbP : forall p x, p < P -> x < T -> bP p x = (CE p x + PE p x + qat R p x)%Qc.
Hypothesis HX0 : forall d x, d < D -> x < T -> takes_part W d x = false -> fX d x = 0%Qc.
Hypothesis HA : forall d x, d < D -> takes_part W d x = true -> A' d x = (bT x - fX d x)%Qc.
Hypothesis HEO : forall p x, p < P -> x < T -> EO' p x = (bP p x - CE p x)%Qc.
Hypothesis HEP : forall p x, p < P -> x < T -> EP p x = (bP p x - PE p x)%Qc.
Hypothesis HTO : forall x, x < T -> supports e2 (bT x) (bT x) (TO' x + OT x) /\ supports e (bT x) (TO' x + OT x) (bT x).
Hypothesis HDept : forall d k x, d < D -> nth_error (participants T (nth d W [])) k = Some x ->
  minsum_message (within (map (fun x => nth x (nth d W []) 0) (participants T (nth d W []))) (nth d caps 0))
    (map (A' d) (participants T (nth d W []))) k (Fin (Dm' d x)).
Hypothesis HTeam : forall x, x < T -> minsum_message coupled (TO' x :: map (fun p => EO' p x) (seq 0 P)) 0 (Fin (OT x)).
Hypothesis HPair : forall p x, p < P -> x < T -> minsum_message coupled (TO' x :: map (fun p => EO' p x) (seq 0 P)) (S p) (Fin (CE' p x)).
Hypothesis HProj : forall p x, p < P -> x < T -> minsum_message at_most_one (map (EP p) (seq 0 T)) x (Fin (PE p x)).
Hypothesis HsD : forall d x, d < D -> takes_part W d x = true -> supports e (bT x) (Dm' d x) (fX d x).
Hypothesis HsC : forall p x, p < P -> x < T -> supports e (bP p x) (CE' p x) (CE p x).
Hypothesis (H1 : (0 <= e)%Qc) (H2 : (0 <= e2)%Qc).
Hypothesis HgT : forall x, x < T -> (bT x < - e \/ e < bT x)%Qc.
Hypothesis HgP : forall p x, p < P -> x < T -> (bP p x < - e \/ e < bP p x)%Qc.

Let b (v : kvar) : Qc := match v with Team x => bT x | Pair p x => bP p x end.
Let m (c : kfac) (v : kvar) : Qc :=
  match c, v with
  | Coup _, Team x => TO' x | Coup _, Pair p x => EO' p x
  | Dept d, Team x => A' d x
  | Proj _, Pair p x => EP p x | _, _ => 0%Qc end.
Let d (c : kfac) (v : kvar) : Qc :=
  match c, v with
  | Coup _, Team x => OT x | Coup _, Pair p x => CE' p x
  | Dept d, Team x => Dm' d x
  | Proj _, Pair p x => PE p x | _, _ => 0%Qc end.
Let Z (c : kfac) (v : kvar) : Qc :=
  match c, v with
  | Coup _, Team x => OT x | Coup _, Pair p x => CE p x
  | Dept d, Team x => fX d x
  | Proj _, Pair p x => PE p x | _, _ => 0%Qc end.

Lemma kbelief v : In v kvars -> b v = (kcost v + qsum (map (fun c => Z c v) (filter (inc kvar_eq kscope v) kfacs)))%Qc.
Proof.
  rewrite in_kvars. destruct v as [x|p x]; intro H.
  - rewrite inc_team by auto. cbn [map b kcost]. rewrite (HbT x H), map_map. cbn [Z]. rewrite qsum_cons, (sum_filter (fun d => fX d x)).
    rewrite (sum_ext (fun d => if takes_part W d x then fX d x else 0%Qc) (fun d => fX d x)); [ring|]. intros k I. apply in_seq in I.
    destruct (takes_part W k x) eqn:Q; [reflexivity|]. symmetry. apply HX0; auto. lia.
  - destruct H as (Hp & Hx). rewrite inc_pair by auto. unfold qsum. cbn [map fold_right b kcost Z]. rewrite HbP by auto. ring.
Qed.
Lemma kexact q p r : q = (p - r)%Qc -> supports e2 p p (q + r).
Proof. intros ->. unfold supports. destruct (qltb p 0); qlra. Qed.
Lemma kshift q p r z : q = (p - r)%Qc -> supports e p z r -> supports e p (q + z) p.
Proof. intros ->. unfold supports. destruct (qltb p 0); intro; qlra. Qed.
Lemma kself p r : supports e p r r.
Proof. unfold supports. destruct (qltb p 0); qlra. Qed.
Lemma ksent c v : In c kfacs -> In v (kscope c) -> supports e2 (b v) (b v) (m c v + Z c v).
Proof.
  intros Ic I. apply kscope_in in I as (Iv & K); auto. apply in_kfacs in Ic. apply in_kvars in Iv.
  destruct c as [x|k|p], v as [y|q y]; cbn [m Z b]; try (now destruct K); subst.
  - now apply HTO.
  - apply kexact, HEO; tauto.
  - apply kexact, HA; auto.
  - apply kexact, HEP; tauto.
Qed.
Lemma ksettled c v : In c kfacs -> In v (kscope c) -> supports e (b v) (m c v + d c v) (b v).
Proof.
  intros Ic I. apply kscope_in in I as (Iv & K); auto. apply in_kfacs in Ic. apply in_kvars in Iv.
  destruct c as [x|k|p], v as [y|q y]; cbn [m d b]; try (now destruct K); subst.
  - now apply HTO.
  - eapply kshift; [apply HEO; tauto|apply HsC; tauto].
  - eapply kshift; [apply HA; auto|apply HsD; auto].
  - eapply kshift; [apply HEP; tauto|apply kself].
Qed.
Lemma kreceived c k v : In c kfacs -> nth_error (kscope c) k = Some v -> minsum_message (kallow c) (map (m c) (kscope c)) k (Fin (d c v)).
Proof.
  rewrite in_kfacs. intros Hc G. destruct c as [x|k'|p]; cbn [m d kscope kallow] in *.
  - cbn [map]. rewrite map_map. destruct k as [|k]; cbn [nth_error] in G.
    + injection G as <-. now apply HTeam.
    + assert (Hk : k < P) by (assert (L : k < length (map (fun p => Pair p x) (seq 0 P))) by (apply nth_error_Some; congruence); now rewrite map_length, seq_length in L).
      rewrite (map_nth_error _ _ _ (nth_error_seq_lt P k Hk)) in G. injection G as <-. now apply HPair.
  - rewrite map_map. cbn [m]. destruct (nth_error (participants T (nth k' W [])) k) as [x|] eqn:Q.
    + rewrite (map_nth_error _ _ _ Q) in G. injection G as <-. now apply HDept.
    + exfalso. apply nth_error_None in Q. assert (L : k < length (map Team (participants T (nth k' W [])))) by (apply nth_error_Some; congruence). rewrite map_length in L. lia.
  - rewrite map_map. cbn [m]. assert (Hk : k < T) by (assert (L : k < length (map (Pair p) (seq 0 T))) by (apply nth_error_Some; congruence); now rewrite map_length, seq_length in L).
    rewrite (map_nth_error _ _ _ (nth_error_seq_lt T k Hk)) in G. injection G as <-. now apply HProj.
Qed.
Lemma kgap v : In v kvars -> (b v < - e \/ e < b v)%Qc.
Proof. rewrite in_kvars. destruct v as [x|p x]; cbn [b]; [apply HgT|intros (Hp & Hx); now apply HgP]. Qed.

Lemma in_traded F F' f : In f (traded F F') <-> xorb (has_pair F f) (has_pair F' f) = true.
Proof.
  unfold traded. rewrite in_app_iff, !filter_In, <- !has_in. destruct (has_pair F f), (has_pair F' f); cbn; intuition discriminate.
Qed.
Lemma settled_selection : exists F, selection T D P W caps F /\
  (forall p x, p < P -> x < T -> has_pair F (p, x) = qltb (bP p x) 0) /\
  (forall x, x < T -> pick F x = qltb (bT x) 0) /\
  forall F' K, matched T P F' ->
    (forall d, d < D -> K d = false -> list_sum (map (fun e => share W d (snd e)) F') <= nth d caps 0 /\ one_trade W d F F') ->
    (selection_cost R reward F + fees D fX K F <= selection_cost R reward F' + fees D fX K F' +
       qn (length (traded F F')) * (zq 3 * e + zq 5 * e2))%Qc.
Proof.
  pose proof (settled_factor kvars kfacs kscope kallow b m d e kscope_ok kreceived ksettled H1 kgap) as Fac.
  destruct (kof_surj (dec b)) as (F & SF & Ys); [intros c Ic; apply Fac; auto|].
  pose proof SF as (SF1 & SF2 & SF3 & _). assert (MF : matched T P F) by (split; auto).
  exists F. split; [exact SF|]. split; [|split].
  { intros p x Hp Hx. symmetry. apply (Ys (Pair p x)). now apply in_kvars. }
  { intros x Hx. symmetry. apply (Ys (Team x)). now apply in_kvars. }
  intros F' K MF' HK. pose proof MF' as (SF1' & SF2' & SF3'). set (y := kof F').
  assert (Df : forall v, In v kvars -> dif b y v = xorb (kof F v) (kof F' v)).
  { intros v Iv. unfold dif, y. rewrite (Ys v Iv). apply xorb_comm. }
  set (charged := fun c => match c with Dept k => K k | _ => false end).
  assert (Ay : forall c, In c kfacs -> charged c = false -> kallow c (map y (kscope c))).
  { intros c Ic Hc. apply kof_allowed; auto. intros k ->. apply in_kfacs in Ic. now apply HK. }
  set (owner := fun c => match c with
    | Coup x => match find (fun f => snd f =? x) F' with Some f => Pair (fst f) x | None => Team x end
    | Proj p => match find (fun f => fst f =? p) F with Some f => Pair p (snd f) | None => Team 0 end
    | Dept k => Team (hd 0 (filter (fun x => xorb (pick F x) (pick F' x)) (participants T (nth k W [])))) end).
  assert (Hown : forall v c c', In v kvars -> dif b y v = true -> In c kfacs -> charged c = false -> In c' kfacs -> charged c' = false ->
    In v (kscope c) -> In v (kscope c') -> c <> c' -> owner c = v \/ owner c' = v).
  { intros v c c' Iv Dv Ic Ac Ic' Ac' I I' N. rewrite (Df v Iv) in Dv.
    apply kscope_in in I as (_ & I); auto. apply kscope_in in I' as (_ & I'); auto. apply in_kfacs in Ic, Ic'.
    destruct v as [x|p x]; cbn [kof] in Dv.
    - assert (O : forall k, k < D -> K k = false -> takes_part W k x = true -> owner (Dept k) = Team x).
      { intros k Hk Kk Tk. cbn [owner]. f_equal. apply hd_only; [now apply in_part|exact Dv|]. intros z Iz Dz. apply in_part in Iz; auto.
        now apply (proj2 (HK k Hk Kk)). }
      destruct c as [y0|k|q], c' as [y1|k'|q']; try (now destruct I); try (now destruct I'); subst; try congruence; auto.
    - assert (Cases : has_pair F (p, x) = true \/ has_pair F' (p, x) = true) by (destruct (has_pair F (p, x)), (has_pair F' (p, x)); auto).
      assert (O : owner (Proj p) = Pair p x \/ owner (Coup x) = Pair p x).
      { destruct Cases as [Q|Q]; apply has_in in Q; [left|right]; cbn [owner].
        - destruct (find (fun f => fst f =? p) F) as [(q, z)|] eqn:G.
          + apply find_some in G as (J & G). cbn in G. apply Nat.eqb_eq in G. subst q. cbn [snd]. f_equal. now apply (pair_project F p).
          + apply (find_none _ _ G) in Q. cbn in Q. now rewrite Nat.eqb_refl in Q.
        - destruct (find (fun f => snd f =? x) F') as [(q, z)|] eqn:G.
          + apply find_some in G as (J & G). cbn in G. apply Nat.eqb_eq in G. subst z. cbn [fst]. f_equal. now apply (pair_team F' q p x).
          + apply (find_none _ _ G) in Q. cbn in Q. now rewrite Nat.eqb_refl in Q. }
      destruct c as [y0|k|q], c' as [y1|k'|q']; try (now destruct I); try (now destruct I'); subst; try congruence; tauto. }
  pose proof (settled_charged kvar_eq kvars kfacs kscope kallow kcost b m d Z e e2 y charged owner kvars_nodup kfacs_nodup kscope_ok kbelief kreceived ksettled
    H1 kgap (fun c v Ic _ => ksent c v Ic) Ay Hown) as Q. cbv zeta beta in Q.
  assert (T1 : total (map kcost kvars) (map (dec b) kvars) = selection_cost R reward F).
  { rewrite <- kof_total by auto. f_equal. now apply map_ext_in. }
  assert (T2 : total (map kcost kvars) (map y kvars) = selection_cost R reward F') by now apply kof_total.
  assert (Ch : forall z G, matched T P G -> (forall v, In v kvars -> z v = kof G v) ->
    qsum (map (fun c => total (map (Z c) (kscope c)) (map z (kscope c))) (filter charged kfacs)) = fees D fX K G).
  { intros z G MG Hz. assert (E : filter charged kfacs = map Dept (filter K (seq 0 D))).
    { unfold kfacs. rewrite !filter_app, (filter_map_some Coup _ (fun _ => false)), (filter_map_some Dept _ K), (filter_map_some Proj _ (fun _ => false)) by reflexivity.
      rewrite !(filter_none (fun _ : nat => false)) by reflexivity. cbn [map app]. now rewrite app_nil_r. }
    rewrite E, map_map. unfold fees. apply sum_ext. intros k Ik. apply filter_In in Ik as (Ik & _). apply in_seq in Ik. cbn [kscope].
    rewrite total_sum, map_map. cbn [Z]. rewrite (sum_ext _ (fun x => if pick G x then fX k x else 0%Qc)).
    2:{ intros x Ix. rewrite Hz; [reflexivity|]. apply in_kvars. apply in_part in Ix; [eauto|lia]. }
    rewrite <- (sum_filter (fX k) (pick G)), (sum_perm _ _ (Permutation_map _ (teams_part G k ltac:(lia) MG))), sum_filter, map_map.
    apply sum_ext. intros (p, x) I. cbn [snd]. destruct (takes_part W k x) eqn:Tk; [reflexivity|]. symmetry. apply HX0; auto; [lia|]. now apply MG in I. }
  rewrite T1, T2, (Ch (dec b) F), (Ch y F') in Q; auto.
  match type of Q with (_ <= _ + ?z)%Qc => match goal with |- (_ <= _ + ?z')%Qc => assert (Le : (z <= z')%Qc); [|clear - Q Le; qlra] end end.
  rewrite (filter_ext_in (dif b y) (fun v => xorb (kof F v) (kof F' v))) by (intros v Iv; now apply Df).
  set (act := fun c => negb (charged c)).
  assert (Dg : forall v, deg kvar_eq kfacs kscope act v <= length (filter (inc kvar_eq kscope v) kfacs)).
  { intro v. unfold deg. rewrite <- filter_filter_and. rewrite (filter_ext _ (fun c => inc kvar_eq kscope v c && act c)) by (intros; apply andb_comm).
    rewrite filter_filter_and. apply filter_shorter. }
  unfold kvars. rewrite filter_app, sum_app.
  rewrite (filter_map_some Team _ (fun x => xorb (pick F x) (pick F' x))) by reflexivity.
  set (n := length (traded F F')).
  assert (L1 : (qsum (map (slack kvar_eq kfacs kscope e e2 act) (map Team (filter (fun x => xorb (pick F x) (pick F' x)) (seq 0 T)))) <= qn n * (qn 2 * e + qn 3 * e2))%Qc).
  { apply Qcle_trans with (qn (length (filter (fun x => xorb (pick F x) (pick F' x)) (seq 0 T))) * (qn 2 * e + qn 3 * e2))%Qc.
    - rewrite <- sum_const, map_map. apply sum_le. intros x Ix. apply filter_In in Ix as (Ix & _). apply in_seq in Ix.
      specialize (Dg (Team x)). rewrite inc_team in Dg by lia. cbn [length] in Dg. rewrite map_length in Dg. specialize (Htwo x).
      unfold slack. apply Qcplus_le_compat; apply qn_le; auto; lia.
    - apply qn_le; [|cbn [qn]; qlra]. unfold n. rewrite <- (map_length snd (traded F F')). apply NoDup_incl_length; [apply NoDup_filter, seq_NoDup|].
      intros x I. apply filter_In in I as (_ & I). apply in_map_iff.
      destruct (pick F x) eqn:Q1, (pick F' x) eqn:Q2; try discriminate.
      + apply pick_in in Q1 as (p & J). exists (p, x). split; [reflexivity|]. apply in_traded. rewrite (proj2 (has_in F (p, x)) J).
        destruct (has_pair F' (p, x)) eqn:Q3; [|reflexivity]. apply has_in in Q3. apply Bool.not_true_iff_false in Q2. exfalso. apply Q2, pick_in. eauto.
      + apply pick_in in Q2 as (p & J). exists (p, x). split; [reflexivity|]. apply in_traded. rewrite (proj2 (has_in F' (p, x)) J).
        destruct (has_pair F (p, x)) eqn:Q3; [|reflexivity]. apply has_in in Q3. apply Bool.not_true_iff_false in Q1. exfalso. apply Q1, pick_in. eauto. }
  assert (L2 : (qsum (map (slack kvar_eq kfacs kscope e e2 act) (filter (fun v => xorb (kof F v) (kof F' v)) (map kpair grid))) <= qn n * (qn 1 * e + qn 2 * e2))%Qc).
  { assert (Ef : filter (fun v => xorb (kof F v) (kof F' v)) (map kpair grid) = map kpair (filter (fun f => xorb (has_pair F f) (has_pair F' f)) grid)).
    { generalize grid. intro l. induction l as [|(p, x) l IH]; [reflexivity|]. cbn [map filter kpair kof fst snd]. rewrite IH. now destruct (xorb _ _). }
    rewrite Ef. apply Qcle_trans with (qn (length (filter (fun f => xorb (has_pair F f) (has_pair F' f)) grid)) * (qn 1 * e + qn 2 * e2))%Qc.
    - rewrite <- sum_const, map_map. apply sum_le. intros (p, x) I. apply filter_In in I as (I & _). apply in_grid in I as (Hp & Hx).
      specialize (Dg (Pair p x)). rewrite inc_pair in Dg by auto. cbn [length] in Dg. unfold kpair. cbn [fst snd].
      unfold slack. apply Qcplus_le_compat; apply qn_le; auto; lia.
    - apply qn_le; [|cbn [qn]; qlra]. unfold n. apply NoDup_incl_length; [apply NoDup_filter, NoDup_grid|].
      intros f I. apply filter_In in I as (_ & I). now apply in_traded. }
  assert (E3 : (zq 3 * e + zq 5 * e2)%Qc = ((qn 2 * e + qn 3 * e2) + (qn 1 * e + qn 2 * e2))%Qc) by (assert (zq 3 = qn 3 /\ zq 5 = qn 5) as (-> & ->) by (split; apply Qc_is_canon; reflexivity); cbn [qn]; ring).
  rewrite E3, Qcmult_plus_distr_r. now apply Qcplus_le_compat.
Qed.
End Call.
