(** * Properties C10, C11 and C43: messages of equality constraints. *)
From Verif Require Import Num NumFacts Arr Spec MinSum M_Equality P_Equality.
Local Open Scope nat_scope.

(** C10, relaxed graph.  The message of edge (u,v) to the constraint of [u] is the cost seen at
    [u] plus the message coming from the other endpoint [v], and symmetrically. *)
Theorem C10_edge_to_degree_relaxed :
  forall (n k : nat) (M C : list (list Qc)) (E : list (nat * nat)) (out : list (list num)),
    length E = n -> shape n k M -> shape n k C -> shape n k out ->
    edges_in k E -> no_self_loop E ->
    exists out',
      edge_to_degree_relaxed n E (inj C) (inj M) out = Some out' /\ shape n k out' /\
      forall e u v, nth_error E e = Some (u, v) ->
        get2 out' e u = Some (Fin (qat C e u + qat M e v)%Qc) /\
        get2 out' e v = Some (Fin (qat C e v + qat M e u)%Qc).
Proof.
  intros n k M C E out HE HM HC HO Hin Hns.
  destruct (edge_to_degree_relaxed_ok n k M C E out HE HM HC HO Hin Hns) as (Q & EQ & SQ & H).
  exists (inj Q). split; [exact EQ|]. split; [apply P_Tsp_Constraints.shape_inj; auto|].
  intros e u v Huv. destruct (edges_in_get _ _ _ _ _ Hin Huv) as [Lu Lv].
  pose proof (no_self_get _ _ _ _ Hns Huv) as Nuv.
  assert (e < n) by (rewrite <- HE; eapply ArrFacts.get_Some_lt; eauto).
  rewrite !(P_Tsp_Constraints.get2_inj n k) by auto.
  rewrite !(H e u v) by auto. unfold swap. rewrite !Nat.eqb_refl.
  destruct (Nat.eqb_spec v u) as [X|X]; [congruence|]. split; do 2 f_equal; qlra.
Qed.

(** C10, augmented graph: all subtour messages of the edge are added; entries that are not an
    endpoint of the edge are left as they were. *)
Theorem C10_edge_to_degree_augmented :
  forall (n k S : nat) (M C Sub : list (list Qc)) (E : list (nat * nat)) (out : list (list num)),
    length E = n -> shape n k M -> shape n k C -> shape S n Sub -> shape n k out ->
    edges_in k E -> no_self_loop E ->
    exists out',
      edge_to_degree_augmented n (inj M) (inj Sub) E (inj C) out = Some out' /\ shape n k out' /\
      (forall e u v, nth_error E e = Some (u, v) ->
        get2 out' e u = Some (Fin (qat C e u + qat M e v + qsum (col Sub S e))%Qc) /\
        get2 out' e v = Some (Fin (qat C e v + qat M e u + qsum (col Sub S e))%Qc)) /\
      (forall e u v w, nth_error E e = Some (u, v) -> w <> u -> w <> v ->
        get2 out' e w = get2 out e w).
Proof.
  intros n k S M C Sub E out HE HM HC HS HO Hin Hns.
  destruct (edge_to_degree_augmented_ok n k S M Sub C E out HE HM HS HC HO Hin Hns)
    as (o & Eo & So & H1 & H2).
  exists o. split; [exact Eo|]. split; auto. split; [|exact H2].
  intros e u v Huv. destruct (H1 e u v Huv) as [-> ->]. unfold col. split; do 2 f_equal; qlra.
Qed.

Example C10_example :
  let E := [(0,1);(1,2);(2,0);(1,0)] in
  let M := map (map zq) [[1;2;3];[4;5;6];[7;8;9];[10;11;12]]%Z in
  let C := map (map zq) [[100;100;0];[0;200;200];[300;0;300];[400;400;0]]%Z in
  let Sub := map (map zq) [[1000;0;0;3000];[2000;0;1000;0]]%Z in
  shape 4 3 M /\ shape 4 3 C /\ shape 2 4 Sub /\ edges_in 3 E /\ no_self_loop E /\
  option_map (map (map view)) (edge_to_degree_relaxed 4 E (inj C) (inj M) (repeat (repeat n1 3) 4))
  = Some (map (map (fun z => VFin (inject_Z z)))
      [[102;101;3];[4;206;205];[309;8;307];[411;410;12]])%Z /\
  option_map (map (map view))
    (edge_to_degree_augmented 4 (inj M) (inj Sub) E (inj C) (repeat (repeat n1 3) 4))
  = Some (map (map (fun z => VFin (inject_Z z)))
      [[3102;3101;1];[1;206;205];[1309;1;1307];[3411;3410;1]])%Z.
Proof.
  repeat (split; [first [split; [reflexivity|repeat constructor]|repeat constructor; cbn; lia]|]).
  split; vm_compute; reflexivity.
Qed.

(** C11.  The message of edge [e] = (u,v) to a cut it belongs to is its cost plus both endpoint
    messages plus the messages of all the other cuts; entries of edges that are not in the cut
    are 0.  One statement covers the special code path for a single cut ([S = 1]) and the
    general one. *)
Theorem C11_edge_to_subtour :
  forall (n k S : nat) (M Sub : list (list Qc)) (cost : list Qc) (E : list (nat * nat))
         (cuts : list (list nat)),
    length E = n -> shape n k M -> length cuts = S -> shape S n Sub -> length cost = n ->
    edges_in k E -> Forall (Forall (fun e => e < n)) cuts ->
    exists out,
      edge_to_subtour n cuts (map Fin cost) (inj M) (inj Sub) E = Some out /\ shape S n out /\
      forall s d e, nth_error cuts s = Some d ->
        (forall u v, In e d -> nth_error E e = Some (u, v) ->
           get2 out s e = Some (Fin (nth e cost 0 + qat M e u + qat M e v
                     + qsum (map (fun s' => qat Sub s' e) (others s (seq 0 S))))%Qc)) /\
        (e < n -> ~ In e d -> get2 out s e = Some n0).
Proof.
  intros n k S M Sub cost E cuts HE HM HD HS HC Hin Hd.
  destruct (edge_to_subtour_ok n k S M Sub cost E cuts HE HM HD HS HC Hin Hd) as (Q & EQ & SQ & H1 & H2).
  exists (inj Q). split; [exact EQ|]. split; [apply P_Tsp_Constraints.shape_inj; auto|].
  intros s d e Hs. assert (s < S) by (rewrite <- HD; eapply ArrFacts.get_Some_lt; eauto). split.
  - intros u v He Huv. assert (e < n) by (rewrite <- HE; eapply ArrFacts.get_Some_lt; eauto).
    rewrite (P_Tsp_Constraints.get2_inj S n) by auto. do 2 f_equal. eapply H1; eauto.
  - intros He Hn. rewrite (P_Tsp_Constraints.get2_inj S n) by auto. unfold n0. do 2 f_equal. eapply H2; eauto.
Qed.

Example C11_example :
  let E := [(0,1);(1,2);(2,0);(1,0)] in
  let M := map (map zq) [[1;2;3];[4;5;6];[7;8;9];[10;11;12]]%Z in
  let Sub := map (map zq) [[1000;0;0;3000];[2000;0;1000;0]]%Z in
  let cuts := [[0;3];[0;2]] in
  shape 4 3 M /\ shape 2 4 Sub /\ edges_in 3 E /\ Forall (Forall (fun e => e < 4)) cuts /\
  option_map (map (map view)) (edge_to_subtour 4 cuts (map zn [100;200;300;400])%Z (inj M) (inj Sub) E)
  = Some (map (map (fun z => VFin (inject_Z z))) [[2103;0;0;421];[1103;0;316;0]])%Z.
Proof.
  repeat (split; [first [split; [reflexivity|repeat constructor]|repeat constructor; cbn; lia]|]).
  vm_compute; reflexivity.
Qed.

(** C43.  Team and project messages to the coupling constraint of KC-MWM. *)
Theorem C43_team_to_coupling :
  forall (D T : nat) (X : list (list Qc)) (reward : list Qc) (out : list num),
    shape D T X -> length reward = T -> length out = T ->
    exists out', team_to_oric_update T (inj X) out (map Fin reward) = Some out' /\ length out' = T /\
      forall t, t < T -> nth_error out' t = Some (Fin (nth t reward 0 + qsum (col X D t))%Qc).
Proof.
  intros D T X r out HX Hr HO. destruct (team_to_oric_ok D T X r out HX Hr HO) as (q & E & L & H).
  exists (map Fin q). split; [exact E|]. rewrite map_length. split; auto. intros t Ht.
  unfold col. rewrite <- H by auto. apply (get_mapFin _ _ T); auto.
Qed.

Theorem C43_project_to_coupling :
  forall (P T : nat) (A R : list (list Qc)) (out : list (list num)),
    shape P T A -> shape P T R -> shape P T out ->
    exists out', project_to_oric_update (inj A) out (inj R) = Some out' /\ shape P T out' /\
      forall p t, p < P -> t < T -> get2 out' p t = Some (Fin (qat A p t + qat R p t)%Qc).
Proof.
  intros P T A R out HA HR HO. destruct (project_to_oric_ok P T A R out HA HR HO) as (Q & E & S & H).
  exists (inj Q). split; [exact E|]. split; [apply P_Tsp_Constraints.shape_inj; auto|]. intros p t Hp Ht.
  rewrite (P_Tsp_Constraints.get2_inj P T) by auto. do 2 f_equal. auto.
Qed.

Example C43_example :
  let X := map (map zq) [[1;2;3];[10;20;30]]%Z in
  let R := map (map zq) [[-5;0;7];[0;-1;-2]]%Z in
  shape 2 3 X /\ shape 2 3 R /\
  option_map (map view) (team_to_oric_update 3 (inj X) (repeat n0 3) (map zn [-100;-200;-300])%Z)
  = Some (map (fun z => VFin (inject_Z z)) [-89;-178;-267])%Z /\
  option_map (map (map view)) (project_to_oric_update (inj X) (repeat (repeat n1 3) 2) (inj R))
  = Some (map (map (fun z => VFin (inject_Z z))) [[-4;2;10];[10;19;28]])%Z.
Proof.
  do 2 (split; [split; [reflexivity|repeat constructor]|]). split; vm_compute; reflexivity.
Qed.

Print Assumptions C10_edge_to_degree_relaxed.
Print Assumptions C10_edge_to_degree_augmented.
Print Assumptions C11_edge_to_subtour.
Print Assumptions C43_team_to_coupling.
Print Assumptions C43_project_to_coupling.
