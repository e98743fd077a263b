(** * Properties C06 and C07: department capacities. *)
From Verif Require Import Num NumFacts Arr Spec MinSum M_Knapsack P_Knapsack P_Team_Knapsack.
Local Open Scope nat_scope.

(** C06.  Department with capacity [cap] and weights [ws]; [nz] is the list of participating teams
    that the front end passes.  Position [p] of [nz] is team [t]. *)
Theorem C06_knapsack_messages_exact :
  forall (T cap : nat) (ws : list nat) (ms : list Qc) (nz : list nat) (out : list num),
    length ws = T -> length ms = T -> length out = T ->
    nz = participants T ws -> nz <> [] -> Forall (fun w => w <= cap) ws ->
    exists out',
      department_update T cap nz (length nz) ws (map Fin ms) out = Some out' /\
      length out' = T /\
      (forall p t, nth_error nz p = Some t ->
         exists q, nth_error out' t = Some (Fin q) /\
           minsum_message (within (map (fun t => nth t ws 0) nz) cap)
                          (map (fun t => nth t ms 0%Qc) nz) p (Fin q)) /\
      (forall t, t < T -> nth t ws 0 = 0 -> nth_error out' t = Some n0).
Proof.
  intros T cap ws ms nz out HW HM HO -> Hne Hcap.
  assert (HC : forall t, t < T -> nth t ws 0 <= cap).
  { intros t Ht. rewrite Forall_forall in Hcap. apply Hcap, nth_In. lia. }
  destruct (department_ok T cap ws ms HW HM HC Hne out HO) as (o & E & L & H1 & H2).
  exists o. split; [exact E|]. split; auto. split; [exact H1|].
  intros t Ht Hz. apply H2; auto. intros Hin. eapply nz_In in Hin; eauto. lia.
Qed.

(** capacity 4; team 1 takes no part; teams 0, 2, 3, 4 weigh 2, 1, 2, 3 *)
Example C06_example :
  let ws := [2; 0; 1; 2; 3] in
  let ms := map zq [-3; 5; -1; -4; -6]%Z in
  participants 5 ws = [0; 2; 3; 4] /\ Forall (fun w => w <= 4) ws /\
  option_map (map view) (department_update 5 4 [0; 2; 3; 4] 4 ws (map Fin ms) (repeat n1 5))
  = Some (map (fun z => VFin (inject_Z z)) [3; 0; 1; 4; 6])%Z.
Proof. cbn [participants]. split; [reflexivity|]. split; [repeat constructor; lia|]. vm_compute. reflexivity. Qed.

(** the two undefined cases excluded by the hypotheses really fail *)
Example C06_no_participant_fails :
  department_update 2 3 [] 0 [0; 0] (map Fin [0; 0]%Qc) (repeat n0 2) = None.
Proof. vm_compute. reflexivity. Qed.
Example C06_overweight_fails :
  department_update 2 3 [0; 1] 2 [4; 1] (map Fin [0; 0]%Qc) (repeat n0 2) = None.
Proof. vm_compute. reflexivity. Qed.

(** C07.  Full statement: the conclusion below without the hypothesis that no team takes part in
    three departments.  That full statement is false, see [C07_team_to_department_refuted]. *)
Theorem C07_team_to_department_partial :
  forall (D T : nat) (nzs : list (list nat)) (reward oric : list Qc) (X : list (list Qc))
         (t2k : list (list num)),
    length nzs = D -> length reward = T -> length oric = T -> shape D T X -> shape D T t2k ->
    Forall (fun nz => increasing nz /\ Forall (fun t => t < T) nz) nzs ->
    (* no team in three departments *)
    (forall d1 d2 d3 l, d1 < d2 < d3 -> d3 < D ->
       ~ (In l (nth d1 nzs []) /\ In l (nth d2 nzs []) /\ In l (nth d3 nzs []))) ->
    exists t2k',
      team_to_knapsack D T nzs t2k (map Fin reward) (inj X) (map Fin oric) = Some t2k' /\
      shape D T t2k' /\
      (forall d l, d < D -> In l (nth d nzs []) ->
         get2 t2k' d l = Some (Fin (nth l reward 0 + nth l oric 0 +
           qsum (map (fun d' => qat X d' l)
                  (filter (fun d' => existsb (Nat.eqb l) (nth d' nzs [])) (others d (seq 0 D)))))%Qc)) /\
      (forall d l, d < D -> ~ In l (nth d nzs []) -> get2 t2k' d l = get2 t2k d l).
Proof.
  intros D T nzs reward oric X t2k HD Hr Ho HX HS Hnz Htwo.
  apply (team_to_knapsack_ok D T nzs reward oric X HD Hr Ho HX Hnz); auto.
  intros d1 d2 d3 l L1 L2 L3 I1 I2 I3.
  destruct (Nat.eq_dec d1 d2); auto. destruct (Nat.eq_dec d1 d3); auto. destruct (Nat.eq_dec d2 d3); auto.
  exfalso. destruct (Nat.lt_total d1 d2) as [A|[A|A]]; try congruence;
    destruct (Nat.lt_total d1 d3) as [B|[B|B]]; try congruence;
    destruct (Nat.lt_total d2 d3) as [C|[C|C]]; try congruence; try lia.
  - apply (Htwo d1 d2 d3 l); auto.
  - apply (Htwo d1 d3 d2 l); auto.
  - apply (Htwo d3 d1 d2 l); auto.
  - apply (Htwo d2 d1 d3 l); auto.
  - apply (Htwo d2 d3 d1 l); auto.
  - apply (Htwo d3 d2 d1 l); auto.
Qed.

Definition c07_full : Prop :=
  forall (D T : nat) (nzs : list (list nat)) (reward oric : list Qc) (X : list (list Qc))
         (t2k : list (list num)),
    length nzs = D -> length reward = T -> length oric = T -> shape D T X -> shape D T t2k ->
    Forall (fun nz => increasing nz /\ Forall (fun t => t < T) nz) nzs ->
    exists t2k',
      team_to_knapsack D T nzs t2k (map Fin reward) (inj X) (map Fin oric) = Some t2k' /\
      (forall d l, d < D -> In l (nth d nzs []) ->
         get2 t2k' d l = Some (Fin (nth l reward 0 + nth l oric 0 +
           qsum (map (fun d' => qat X d' l)
                  (filter (fun d' => existsb (Nat.eqb l) (nth d' nzs [])) (others d (seq 0 D)))))%Qc)).

(** One team in three departments: the second [erase(find(...))] erases [end()]. *)
Theorem C07_team_to_department_refuted : ~ c07_full.
Proof.
  intros H. destruct (H 3 1 [[0]; [0]; [0]] [0%Qc] [0%Qc] [[0%Qc]; [0%Qc]; [0%Qc]] [[n0]; [n0]; [n0]])
    as (r & E & _); try (repeat constructor; fail).
  - repeat constructor; intros [|[|i]] [|[|j]] x y Hij A B; try discriminate; lia.
  - vm_compute in E. discriminate.
Qed.

(** teams 0 and 2 are in two departments, 1 and 3 in one *)
Example C07_example :
  let nzs := [[0; 1; 2]; [2; 3]; [0]] in
  let X := map (map zq) [[1; 2; 3; 4]; [10; 20; 30; 40]; [100; 200; 300; 400]]%Z in
  option_map (map (map view))
    (team_to_knapsack 3 4 nzs (repeat (repeat n1 4) 3) (map Fin (map zq [-1; -2; -3; -4]%Z)) (inj X)
       (map Fin (map zq [1000; 2000; 3000; 4000]%Z)))
  = Some (map (map (fun z => VFin (inject_Z z)))
      [[1099; 1998; 3027; 1]; [1; 1; 3000; 3996]; [1000; 1; 1; 1]])%Z.
Proof. vm_compute. reflexivity. Qed.

Print Assumptions C06_knapsack_messages_exact.
Print Assumptions C07_team_to_department_partial.
Print Assumptions C07_team_to_department_refuted.
