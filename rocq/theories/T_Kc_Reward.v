(** * Property C101: the rewards and the order of the departments of generated KC-MWM teams. *)
From Verif Require Import Num Arr ArrFacts M_InOut P_Runs M_Tsp_Run M_Tsp_Post M_Kc_Py SpecKc P_Tsp_Run P_Kc_Gen.
From Verif Require T_Kc_Py.
Local Open Scope nat_scope.

(** ** What the tables of initializationModule.py say *)

(** The departments lie in four regions: 1 to 4, 5 to 7, 8 and 9, 10 and 11. *)
Definition region (u : nat) : nat := if u <=? 4 then 0 else if u <=? 7 then 1 else if u <=? 9 then 2 else 3.
(** how far the first department [u] of a team is from its second department [v] *)
Definition apart (u v : nat) : Z :=
  match region u, region v with
  | 0, 0 | 1, 1 => 0%Z
  | 0, 1 | 1, 0 => 1%Z
  | 1, 3 => if u =? 7 then 2%Z else 3%Z
  | 3, 1 => 3%Z
  | _, _ => 2%Z
  end.
Definition fighter_cost (u : nat) : Z := if (u =? 4) || (u =? 7) then 4%Z else if 10 <=? u then 1%Z else 0%Z.
Definition weasel_cost (v : nat) : Z := if (v =? 4) || (v =? 7) || (10 <=? v) then 0%Z else if region v =? 2 then 1%Z else 2%Z.
(** minus ten units per team, plus the distance and the costs; weasels only count in teams that have any *)
Definition team_value (t : team) : Z :=
  (apart (t_u t) (t_v t) + fighter_cost (t_u t) + (if (snd (members (t_type t)) =? 0)%nat then 0 else weasel_cost (t_v t)) - 10)%Z.

(** ** The model computes them *)
Definition table_ok : bool :=
  forallb (fun u => forallb (fun v => forallb (fun ty =>
    match team_reward u v ty with Some r => (r =? team_value (u, v, ty))%Z | None => false end) (seq 1 5)) (seq 1 11)) (seq 1 11).
Lemma reward_value u v ty : 1 <= u <= 11 -> 1 <= v <= 11 -> 1 <= ty <= 5 -> team_reward u v ty = Some (team_value (u, v, ty)).
Proof.
  intros Hu Hv Ht. assert (T : table_ok = true) by (vm_compute; reflexivity). unfold table_ok in T.
  rewrite forallb_forall in T. specialize (T u ltac:(apply in_seq; lia)).
  rewrite forallb_forall in T. specialize (T v ltac:(apply in_seq; lia)).
  rewrite forallb_forall in T. specialize (T ty ltac:(apply in_seq; lia)).
  destruct (team_reward u v ty) as [r|]; [|discriminate T]. apply Z.eqb_eq in T. congruence.
Qed.
Lemma place_reward size ty : forall l g g', foldM (place size ty) l g = Some g' -> gen_reward g' = gen_reward g.
Proof.
  induction l as [|dw l IH]; intros g g' H; cbn [foldM] in H; [congruence|]. unfold place in H at 1.
  destruct (push (gen_weights g) _ _ _) as [ws|]; cbn [bind] in H; [|discriminate H].
  destruct (push (gen_types g) _ _ _) as [ts|]; cbn [bind] in H; [|discriminate H]. rewrite (IH _ _ H). reflexivity.
Qed.
Section Rewards.
Variable caps : list nat.
Hypothesis HD : length caps <= 11.
Lemma type_reward g sizes u v ty g' sizes' : in_range caps (u, v, ty) -> gen_type caps u v (g, sizes) ty = Some (g', sizes') ->
  gen_reward g' = gen_reward g ++ map team_value (teams_of caps [(u, v, ty)]).
Proof.
  intros Hr H. unfold teams_of. cbn [flat_map]. rewrite app_nil_r. unfold gen_type in H.
  destruct (team_case_ok caps (u, v, ty) Hr) as (placed & E & _). cbn [t_u t_v t_type fst snd] in E. rewrite E in H. cbn [bind] in H.
  destruct (foldM _ placed g) as [g1|] eqn:G1; cbn [bind] in H; [|discriminate H]. apply place_reward in G1.
  destruct (Nat.eqb_spec (count_fn caps (u, v, ty)) 0) as [Z|Z].
  - injection H as <- _. rewrite Z, G1. cbn [repeat map]. now rewrite app_nil_r.
  - destruct Hr as (Hu & Hv & Ht). cbn [t_u t_v t_type fst snd] in *. rewrite reward_value in H by lia. cbn [bind] in H.
    match type of H with context [foldM ?f ?l ?x] => destruct (foldM f l x) as [g2|] eqn:G2 end; cbn [bind] in H; [|discriminate H].
    apply place_reward in G2. injection H as <- _. rewrite G2. cbn [gen_reward]. rewrite G1, copies_repeat, map_repeat by auto. reflexivity.
Qed.
Lemma teams_of_app a b : teams_of caps (a ++ b) = teams_of caps a ++ teams_of caps b.
Proof. apply flat_map_app. Qed.
Lemma types_reward u v : forall types g sizes g' sizes', Forall (fun ty => in_range caps (u, v, ty)) types ->
  foldM (gen_type caps u v) types (g, sizes) = Some (g', sizes') ->
  gen_reward g' = gen_reward g ++ map team_value (teams_of caps (map (fun ty => (u, v, ty)) types)).
Proof.
  induction types as [|ty types IH]; intros g sizes g' sizes' F H; cbn [foldM] in H.
  - injection H as <- _. cbn. now rewrite app_nil_r.
  - inversion F as [|? ? F1 F2]; subst. destruct (gen_type caps u v (g, sizes) ty) as [(g1, s1)|] eqn:E; cbn [bind] in H; [|discriminate H].
    cbn [map]. change ((u, v, ty) :: ?l) with ([(u, v, ty)] ++ l). rewrite teams_of_app, map_app, app_assoc.
    rewrite <- (type_reward _ _ _ _ _ _ _ F1 E). eapply IH; eauto.
Qed.
Lemma combos_reward types : forall combos g sums g' sums', Forall (fun c => Forall (fun ty => in_range caps (c, ty)) types) combos ->
  foldM (gen_combination caps types) combos (g, sums) = Some (g', sums') ->
  gen_reward g' = gen_reward g ++ map team_value (teams_of caps (blocks types combos)).
Proof.
  induction combos as [|(u, v) combos IH]; intros g sums g' sums' F H; cbn [foldM] in H.
  - injection H as <- _. cbn. now rewrite app_nil_r.
  - inversion F as [|? ? F1 F2]; subst. unfold gen_combination in H at 1. cbn [fst snd] in H.
    destruct (foldM (gen_type caps u v) types (g, [])) as [(g1, s1)|] eqn:E; cbn [bind] in H; [|discriminate H].
    unfold blocks. cbn [flat_map]. rewrite teams_of_app, map_app, app_assoc.
    rewrite <- (types_reward _ _ _ _ _ _ _ F1 E). eapply IH; eauto.
Qed.
End Rewards.

(** ** C101 *)

(** [team_reward_generation] returns one reward per generated team, in the order of the teams, and
    it is the value of the team. *)
Theorem C101_rewards : forall caps types combos teams,
  Forall (fun ty => 1 <= ty <= 5) types -> prune_teams (length caps) = Some combos -> generated caps types combos teams ->
  exists g sums, generate caps types combos = Some (g, sums) /\ gen_reward g = map team_value teams.
Proof.
  intros caps types combos teams Ht Hp Hg.
  assert (HD : length caps <= 11).
  { destruct (Nat.le_gt_cases (length caps) 11) as [L|L]; auto. rewrite prune_too_many in Hp by lia. discriminate Hp. }
  destruct (prune_ok (length caps) HD) as (cs & E & _ & _ & P). rewrite Hp in E. injection E as <-.
  assert (F : Forall (fun c => Forall (fun ty => in_range caps (c, ty)) types) combos).
  { apply Forall_forall. intros (u, v) I. destruct (P u v I). apply Forall_forall. intros ty It. rewrite Forall_forall in Ht.
    split; [|split]; cbn; auto. }
  assert (R : forall b, In b (blocks types combos) -> in_range caps b).
  { intros b I. unfold blocks in I. apply in_flat_map in I as (c & Ic & I). apply in_map_iff in I as (ty & <- & It).
    rewrite Forall_forall in F. specialize (F c Ic). rewrite Forall_forall in F. auto. }
  destruct (generate_ok caps HD types combos F) as (g & E & _). eexists g, _. split; [exact E|].
  rewrite (generated_unique caps types combos teams R Hg). apply (combos_reward caps HD types combos _ _ _ _ F E).
Qed.

(** Every reward lies between -10 and -3.  Both ends occur, see the examples. *)
Theorem C101_range : forall caps types combos teams t,
  Forall (fun ty => 1 <= ty <= 5) types -> prune_teams (length caps) = Some combos -> generated caps types combos teams ->
  In t teams -> (-10 <= team_value t <= -3)%Z.
Proof.
  intros caps types combos teams t Ht Hp (count & _ & ->) I. apply in_flat_map in I as (b & Ib & I). apply repeat_spec in I. subst t.
  assert (HD : length caps <= 11).
  { destruct (Nat.le_gt_cases (length caps) 11) as [L|L]; auto. rewrite prune_too_many in Hp by lia. discriminate Hp. }
  destruct (prune_ok (length caps) HD) as (cs & E & _ & _ & P). rewrite Hp in E. injection E as <-.
  unfold blocks in Ib. apply in_flat_map in Ib as ((u, v) & Ic & Ib). apply in_map_iff in Ib as (ty & <- & It).
  rewrite Forall_forall in Ht. specialize (Ht ty It). destruct (P u v Ic) as (Hu & Hv).
  assert (T : forallb (fun u => forallb (fun v => forallb (fun ty => ((-10 <=? team_value (u, v, ty)) && (team_value (u, v, ty) <=? -3))%Z)
    (seq 1 5)) (seq 1 11)) (seq 1 11) = true) by (vm_compute; reflexivity).
  rewrite forallb_forall in T. specialize (T u ltac:(apply in_seq; lia)).
  rewrite forallb_forall in T. specialize (T v ltac:(apply in_seq; lia)).
  rewrite forallb_forall in T. specialize (T ty ltac:(apply in_seq; lia)). apply andb_true_iff in T as (T1 & T2). lia.
Qed.

(** ** Which orders of two departments are available *)
(** The kind of a meeting (0 is "CV", 1 is "RR") by regions: department 5, 6 or 7 as the second one, or
    as the first one with a second one outside the first region, or both among 8 and 9. *)
Definition meeting (u v : nat) : nat :=
  if (region v =? 1) || ((region u =? 1) && negb (region v =? 0)) || ((region u =? 2) && (region v =? 2)) then 1 else 0.
Definition meeting_ok : bool :=
  forallb (fun u => forallb (fun v =>
    (nth (v - 1) (nth (u - 1) distance_metric_rendezvouz []) 0 =? meeting u v) &&
    (nth (v - 1) (nth (u - 1) distance_metric []) 0 =? apart v u)%Z &&
    (nth (u - 1) F_u 0 =? fighter_cost u)%Z && (nth (u - 1) W_u 0 =? weasel_cost u)%Z) (seq 1 11)) (seq 1 11).
Lemma tables u v : 1 <= u <= 11 -> 1 <= v <= 11 ->
  nth (v - 1) (nth (u - 1) distance_metric_rendezvouz []) 0 = meeting u v /\
  nth (v - 1) (nth (u - 1) distance_metric []) 0%Z = apart v u /\
  nth (u - 1) F_u 0%Z = fighter_cost u /\ nth (u - 1) W_u 0%Z = weasel_cost u.
Proof.
  intros Hu Hv. assert (T : meeting_ok = true) by (vm_compute; reflexivity). unfold meeting_ok in T.
  rewrite forallb_forall in T. specialize (T u ltac:(apply in_seq; lia)).
  rewrite forallb_forall in T. specialize (T v ltac:(apply in_seq; lia)).
  rewrite !andb_true_iff, Nat.eqb_eq, !Z.eqb_eq in T. tauto.
Qed.
(** A pair of departments is available unless the rule of C52, with costs, distances and kinds given
    by departments and regions, drops it in favour of the other order. *)
Theorem C101_available : forall n combos u v, prune_teams n = Some combos ->
  (In (u, v) combos <-> 1 <= u <= n /\ 1 <= v <= n /\ ~ dropped fighter_cost weasel_cost (fun u v => apart v u) meeting u v).
Proof.
  intros n combos u v Hp.
  assert (HD : n <= 11).
  { destruct (Nat.le_gt_cases n 11) as [L|L]; auto. rewrite prune_too_many in Hp by lia. discriminate Hp. }
  destruct (proj1 (T_Kc_Py.C52_pruning n) HD) as (cs & E & P & _). rewrite Hp in E. injection E as <-. rewrite P.
  assert (X : 1 <= u <= n -> 1 <= v <= n ->
    (dropped (fun u => nth (u - 1) F_u 0%Z) (fun v => nth (v - 1) W_u 0%Z)
       (fun u v => nth (v - 1) (nth (u - 1) distance_metric []) 0%Z)
       (fun u v => nth (v - 1) (nth (u - 1) distance_metric_rendezvouz []) 0) u v <->
     dropped fighter_cost weasel_cost (fun u v => apart v u) meeting u v)).
  { intros Hu Hv. destruct (tables u v ltac:(lia) ltac:(lia)) as (A1 & A2 & A3 & A4).
    destruct (tables v u ltac:(lia) ltac:(lia)) as (B1 & B2 & B3 & B4).
    unfold dropped, score. rewrite A1, A2, A3, A4, B1, B2, B3, B4. tauto. }
  split; intros (Hu & Hv & N); (split; [exact Hu|]; split; [exact Hv|]; rewrite X in * by auto; exact N).
Qed.
(** Full statement: two different departments for which both orders are of the same kind are
    available in one order only. *)
Definition same_kind (u v : nat) : Prop :=
  get2 distance_metric_rendezvouz (u - 1) (v - 1) = get2 distance_metric_rendezvouz (v - 1) (u - 1).
Definition c101_one_order : Prop := forall n combos u v,
  prune_teams n = Some combos -> 1 <= u <= n -> 1 <= v <= n -> u <> v -> same_kind u v -> ~ (In (u, v) combos /\ In (v, u) combos).
(** False: the distance of 7 from 10 and 11 is 3, but that of 10 and 11 from 7 is 2; both orders of
    these pairs stay available. *)
Theorem C101_one_order_refuted : ~ c101_one_order /\
  get2 distance_metric 6 9 = Some 3%Z /\ get2 distance_metric 9 6 = Some 2%Z.
Proof.
  split; [|split; reflexivity]. intros H. destruct (prune_teams 11) as [cs|] eqn:E; [|vm_compute in E; discriminate E].
  apply (H 11 cs 7 10 E); [lia|lia|lia|reflexivity|]. vm_compute in E. injection E as <-.
  split; apply edge_mem_In; vm_compute; reflexivity.
Qed.
(** True for all other pairs. *)
Definition order_ok (n : nat) : bool :=
  match prune_teams n with
  | Some cs => forallb (fun u => forallb (fun v =>
      (u =? v) || ((u =? 7) && (10 <=? v)) || ((v =? 7) && (10 <=? u)) ||
      negb (match get2 distance_metric_rendezvouz (u - 1) (v - 1), get2 distance_metric_rendezvouz (v - 1) (u - 1) with
            | Some a, Some b => a =? b | _, _ => true end) ||
      negb (edge_mem (u, v) cs && edge_mem (v, u) cs)) (seq 1 n)) (seq 1 n)
  | None => true
  end.
Lemma order_all n : n <= 11 -> order_ok n = true.
Proof. intro H. do 12 (destruct n as [|n]; [vm_compute; reflexivity|]). lia. Qed.
Theorem C101_one_order_partial : forall n combos u v,
  prune_teams n = Some combos -> 1 <= u <= n -> 1 <= v <= n -> u <> v -> same_kind u v ->
  ~ (u = 7 /\ 10 <= v) -> ~ (v = 7 /\ 10 <= u) -> ~ (In (u, v) combos /\ In (v, u) combos).
Proof.
  intros n combos u v Hp Hu Hv N K N1 N2 (I1 & I2).
  assert (HD : n <= 11).
  { destruct (Nat.le_gt_cases n 11) as [L|L]; auto. rewrite prune_too_many in Hp by lia. discriminate Hp. }
  pose proof (order_all n HD) as T. unfold order_ok in T. rewrite Hp in T.
  rewrite forallb_forall in T. specialize (T u ltac:(apply in_seq; lia)).
  rewrite forallb_forall in T. specialize (T v ltac:(apply in_seq; lia)).
  apply edge_mem_In in I1, I2. rewrite I1, I2 in T. unfold same_kind in K. rewrite K in T.
  rewrite (proj2 (Nat.eqb_neq u v) N) in T.
  assert (X1 : ((u =? 7) && (10 <=? v)) = false) by (apply Bool.not_true_is_false; rewrite andb_true_iff, Nat.eqb_eq, Nat.leb_le; exact N1).
  assert (X2 : ((v =? 7) && (10 <=? u)) = false) by (apply Bool.not_true_is_false; rewrite andb_true_iff, Nat.eqb_eq, Nat.leb_le; exact N2).
  rewrite X1, X2 in T. destruct (get2 distance_metric_rendezvouz (v - 1) (u - 1)) as [b|]; [rewrite Nat.eqb_refl in T|]; discriminate T.
Qed.

(** ** Examples *)
(** Two departments of capacity 2 and teams of types 1 and 2: eight teams. *)
Example C101_example : exists combos g sums,
  prune_teams 2 = Some combos /\ combos = [(1, 1); (1, 2); (2, 2)] /\
  generate [2; 2] [1; 2] combos = Some (g, sums) /\ gen_reward g = [-10; -10; -8; -8; -8; -10; -10; -8]%Z.
Proof. do 3 eexists. split; [vm_compute; reflexivity|]. split; [reflexivity|]. vm_compute. split; reflexivity. Qed.
(** Six departments: a team of type 2 of departments 4 and 5 has reward -3, one of type 1 of department 1 has -10. *)
Example C101_range_example : exists combos, prune_teams 6 = Some combos /\ edge_mem (4, 5) combos = true /\
  team_value (4, 5, 2) = (-3)%Z /\ team_value (1, 1, 1) = (-10)%Z.
Proof. eexists. split; [vm_compute; reflexivity|]. vm_compute. auto. Qed.
(** with eleven departments: both orders of 7 and 10, one order of 5 and 10 *)
Example C101_orders_example : exists combos, prune_teams 11 = Some combos /\
  edge_mem (7, 10) combos = true /\ edge_mem (10, 7) combos = true /\
  edge_mem (5, 10) combos = true /\ edge_mem (10, 5) combos = false.
Proof. eexists. split; [vm_compute; reflexivity|]. vm_compute. auto. Qed.

Print Assumptions C101_rewards.
Print Assumptions C101_range.
Print Assumptions C101_available.
Print Assumptions C101_one_order_refuted.
Print Assumptions C101_one_order_partial.
