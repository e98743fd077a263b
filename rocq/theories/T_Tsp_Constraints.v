(** * Properties C01 and C02: degree and subtour messages. *)
From Verif Require Import Num Arr Spec MinSum M_Tsp_Constraints P_Tsp_Constraints.
Local Open Scope nat_scope.

(** C01.  For [k] nodes and any loop-free edge list in which every node has an edge out and an
    edge in, one degree step succeeds (no out-of-range access) and the entry of edge [e] at the
    node it leaves (enters) is the min-sum message of "exactly one edge leaves (enters) the
    node"; all other entries keep their value. *)
Theorem C01_degree_messages_exact :
  forall (k : nat) (E : list (nat * nat)) (M : list (list Qc)) (out : list (list num)),
    shape (length E) k M -> shape (length E) k out ->
    no_self_loop E ->
    (forall u, u < k -> from_node E u <> [] /\ into_node E u <> []) ->
    exists out',
      degree_update k (length E) E (inj M) out = Some out' /\ shape (length E) k out' /\
      (forall u p e, u < k -> nth_error (from_node E u) p = Some e ->
         exists v, get2 out' e u = Some v /\
           minsum_message exactly_one (map (fun e => qat M e u) (from_node E u)) p v) /\
      (forall u p e, u < k -> nth_error (into_node E u) p = Some e ->
         exists v, get2 out' e u = Some v /\
           minsum_message exactly_one (map (fun e => qat M e u) (into_node E u)) p v) /\
      (forall u e, u < k -> ~ (In e (from_node E u) \/ In e (into_node E u)) ->
         get2 out' e u = get2 out e u).
Proof. intros. apply degree_update_ok; auto. Qed.

(** The hypotheses hold for the complete directed graph on three nodes; the step computes. *)
Definition ex_edges : list (nat * nat) := [(0,1);(0,2);(1,0);(1,2);(2,0);(2,1)].
Definition ex_msgs : list (list Qc) :=
  map (map zq) [[3;5;0];[-2;0;7];[4;1;0];[0;-6;2];[9;0;-1];[0;8;6]]%Z.
Example C01_example :
  shape 6 3 ex_msgs /\ no_self_loop ex_edges /\
  (forall u, u < 3 -> from_node ex_edges u <> [] /\ into_node ex_edges u <> []) /\
  option_map (map (map view)) (degree_update 3 6 ex_edges (inj ex_msgs) (repeat (repeat n0 3) 6))
  = Some (map (map (fun z => VFin (inject_Z z)))
      [[2;-8;0];[-3;0;-2];[-9;6;0];[0;-1;-7];[-4;0;-6];[0;-5;1]])%Z.
Proof.
  split; [|split; [|split]].
  - split; [reflexivity|]. repeat constructor.
  - repeat constructor; cbn; congruence.
  - intros [|[|[|u]]] Hu; try lia; split; cbn; congruence.
  - vm_compute. reflexivity.
Qed.

(** C02.  For any list of non-empty duplicate-free cuts, one subtour step succeeds and writes
    for each edge of each cut the min-sum message of "at least one edge of the cut is
    selected"; entries of edges outside the cut keep their value. *)
Theorem C02_subtour_messages_exact :
  forall (n : nat) (cuts : list (list nat)) (M : list (list Qc)) (out : list (list num)),
    shape (length cuts) n M -> shape (length cuts) n out ->
    Forall (fun d => d <> [] /\ NoDup d /\ Forall (fun e => e < n) d) cuts ->
    exists out',
      subtour_update n cuts (inj M) out = Some out' /\ shape (length cuts) n out' /\
      (forall s d p e, nth_error cuts s = Some d -> nth_error d p = Some e ->
         exists v, get2 out' s e = Some v /\
           minsum_message at_least_one (map (fun e => qat M s e) d) p v) /\
      (forall s d e, nth_error cuts s = Some d -> ~ In e d -> get2 out' s e = get2 out s e).
Proof. intros. apply subtour_update_ok; auto. Qed.

Example C02_example :
  let cuts := [[0;2;3];[1;4]] in
  let M := map (map zq) [[3;0;-5;2;0];[0;4;0;0;-1]]%Z in
  shape 2 5 M /\
  Forall (fun d => d <> [] /\ NoDup d /\ Forall (fun e => e < 5) d) cuts /\
  option_map (map (map view)) (subtour_update 5 cuts (inj M) (repeat (repeat n1 5) 2))
  = Some (map (map (fun z => VFin (inject_Z z))) [[0;1;-2;0;1];[1;0;1;1;-4]])%Z.
Proof.
  split; [|split].
  - split; [reflexivity|]. repeat constructor.
  - repeat constructor; cbn; try lia; congruence.
  - vm_compute. reflexivity.
Qed.

Print Assumptions C01_degree_messages_exact.
Print Assumptions C02_subtour_messages_exact.
