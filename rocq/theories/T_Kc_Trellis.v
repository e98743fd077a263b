(** * Properties C03, C04, C05: project and team/project coupling messages. *)
From Verif Require Import Num NumFacts Arr Spec MinSum MinSumFacts M_Kc_Trellis P_Kc_Trellis.
Local Open Scope nat_scope.

(** C03.  For any number of projects and teams the project step succeeds and the entry of
    (project, team) is the min-sum message of "at most one team is assigned to the project". *)
Theorem C03_project_messages_exact :
  forall (P T : nat) (M : list (list Qc)) (out : list (list num)),
    shape P T M -> shape P T out ->
    exists out',
      project_update T (inj M) out = Some out' /\ shape P T out' /\
      forall p t, p < P -> t < T ->
        exists v, get2 out' p t = Some v /\ minsum_message at_most_one (nth p M []) t v.
Proof.
  intros P T M out HM HO.
  destruct (project_update_ok P T M out HM HO) as (o & E & S & H).
  exists o; split; [auto|split; auto]. intros p t Hp Ht. eexists; split; [apply H; auto|].
  apply at_most_one_message. destruct HM as [L F]. rewrite Forall_forall in F.
  rewrite (F (nth p M [])); auto. apply nth_In; lia.
Qed.

Example C03_example :
  let M := map (map zq) [[3;-4;2;-1];[5;6;7;-2]]%Z in
  shape 2 4 M /\
  option_map (map (map view)) (project_update 4 (inj M) (repeat (repeat PInf 4) 2))
  = Some (map (map (fun z => VFin (inject_Z z))) [[4;1;4;4];[2;2;2;0]])%Z.
Proof. split; [split; [reflexivity|repeat constructor]|vm_compute; reflexivity]. Qed.

(** C04.  For any number of projects [P] and teams [T] the coupling step succeeds; the entry of
    (project, team) is the min-sum message, towards the project, of "an unformed team has no
    project, a formed team has exactly one", where the incoming messages are the team's own
    message followed by its messages from all projects; the second output adds the reward. *)
Theorem C04_coupling_to_project_exact :
  forall (P T : nat) (M R : list (list Qc)) (team : list Qc) (out1 out2 : list (list num)),
    shape P T M -> shape P T R -> length team = T -> shape P T out1 -> shape P T out2 ->
    exists out1' out2',
      oric_to_project_update P T (inj M) (map Fin team) out1 out2 (inj R) = Some (out1', out2') /\
      shape P T out1' /\ shape P T out2' /\
      forall p t, p < P -> t < T ->
        exists v, get2 out1' p t = Some v /\
          minsum_message coupled (nth t team 0%Qc :: col M P t) (S p) v /\
          get2 out2' p t = Some (nadd v (Fin (qat R p t))).
Proof.
  intros P T M R team out1 out2 HM HR HT H1 H2.
  destruct (oric_to_project_ok P T M team R out1 out2) as (a & b & E & S1 & S2 & H); auto.
  exists a, b. repeat (split; [assumption|]). intros p t Hp Ht.
  destruct (H p t Hp Ht) as [A B]. eexists; split; [exact A|]. split; [|exact B].
  apply coupled_message. rewrite col_length; auto.
Qed.

Example C04_example :
  let M := map (map zq) [[3;-4];[2;-1];[-9;5]]%Z in
  let R := map (map zq) [[1;1];[2;2];[10;20]]%Z in
  let team := map zq [-2;3]%Z in
  shape 3 2 M /\ shape 3 2 R /\ length team = 2 /\
  option_map (fun p => (map (map view) (fst p), map (map view) (snd p)))
    (oric_to_project_update 3 2 (inj M) (map Fin team) (repeat (repeat n0 2) 3)
       (repeat (repeat n0 2) 3) (inj R))
  = Some (map (map (fun z => VFin (inject_Z z))) [[9;3];[9;4];[-2;4]],
          map (map (fun z => VFin (inject_Z z))) [[10;4];[11;6];[8;24]])%Z.
Proof.
  split; [split; [reflexivity|repeat constructor]|].
  split; [split; [reflexivity|repeat constructor]|].
  split; [reflexivity|vm_compute; reflexivity].
Qed.

(** C05, full statement (kept in view):

      forall P T M out, shape P T M -> length out = T ->
        exists out', oric_to_team_update (inj M) out = Some out' /\ length out' = T /\
          forall t, t < T -> exists v, get out' t = Some v /\
            forall team, minsum_message coupled (team :: col M P t) 0 v.

    It is false of the code: the running minimum starts at 1000000 instead of infinity. *)
Definition C05_statement : Prop :=
  forall (P T : nat) (M : list (list Qc)) (out : list num),
    shape P T M -> length out = T ->
    exists out', oric_to_team_update (inj M) out = Some out' /\ length out' = T /\
      forall t, t < T -> exists v, get out' t = Some v /\
        forall team, minsum_message coupled (team :: col M P t) 0 v.

Theorem C05_coupling_to_team_refuted : ~ C05_statement.
Proof.
  intros H. destruct (H 1 1 [[zq 2000000]] [n0]) as (o & E & _ & Ht).
  - split; [reflexivity|repeat constructor].
  - reflexivity.
  - destruct (Ht 0) as (v & Hv & Hm); [lia|]. specialize (Hm 0%Qc).
    pose proof (minsum_message_unique _ _ _ _ _ Hm (coupled_team_message 0%Qc _)) as Ev.
    assert (C : view v = VFin (inject_Z 1000000)).
    { vm_compute in E. injection E as <-. cbn in Hv. injection Hv as <-. reflexivity. }
    rewrite Ev in C. vm_compute in C. discriminate.
Qed.

(** What does hold: the message is exact for every team that has at least one project-side
    message of at most 1000000 (missing: teams all of whose messages exceed it, and the
    degenerate case of no project). *)
Theorem C05_coupling_to_team_partial :
  forall (P T : nat) (M : list (list Qc)) (out : list num),
    shape P T M -> length out = T ->
    exists out', oric_to_team_update (inj M) out = Some out' /\ length out' = T /\
      forall t, t < T -> (exists p, p < P /\ (qat M p t <= zq 1000000)%Qc) ->
        exists v, get out' t = Some v /\
          forall team, minsum_message coupled (team :: col M P t) 0 v.
Proof.
  intros P T M out HM HO. destruct (oric_to_team_ok P T M out HM HO) as (o & E & L & H).
  exists o; split; [auto|split; auto]. intros t Ht (p & Hp & Hle).
  eexists; split; [apply H; auto|]. intros team.
  replace (nmin oric_cap (nmins (map Fin (col M P t)))) with (nmins (map Fin (col M P t)));
    [apply coupled_team_message|].
  assert (In (qat M p t) (col M P t)).
  { apply nth_error_In with p. apply get_col; auto. }
  pose proof (nmins_is_min (col M P t)) as I.
  destruct (nmins (map Fin (col M P t))) as [q| | |] eqn:Eq; cbn in I; try tauto.
  - destruct I as [_ I]. specialize (I _ H0). symmetry. unfold oric_cap, zn, nmin. cbn [nlt].
    destruct (qltb_spec q (zq 1000000)) as [|Hge]; auto. f_equal. qlra.
  - exfalso. eapply I; eauto.
Qed.

Example C05_example :
  let M := map (map zq) [[3;-4];[2;5000000]]%Z in
  shape 2 2 M /\ (forall t, t < 2 -> exists p, p < 2 /\ (qat M p t <= zq 1000000)%Qc) /\
  option_map (map view) (oric_to_team_update (inj M) [n0; n0])
  = Some [VFin (inject_Z 2); VFin (inject_Z (-4))].
Proof.
  split; [split; [reflexivity|repeat constructor]|]. split.
  - intros [|[|t]] Ht; try lia; exists 0; (split; [lia|vm_compute; congruence]).
  - vm_compute; reflexivity.
Qed.

Print Assumptions C03_project_messages_exact.
Print Assumptions C04_coupling_to_project_exact.
Print Assumptions C05_coupling_to_team_refuted.
Print Assumptions C05_coupling_to_team_partial.
