(** * C16, C17, C40: loop detection among the selected edges *)
From Coq Require Import Permutation.
From Verif Require Import Arr ArrFacts SpecGraph M_Tsp_Loops P_Tsp_Loops.
Local Open Scope nat_scope.

(** In all statements [ord] is the iteration order of the hash map: any function that permutes the
    list of keys. *)

(** ** C16 *)

(** Every loop reported is a simple directed cycle of selected edges, and no reported loop is a
    rotation of another one (or a contiguous part of one reported before it). *)
Theorem C16_loops_are_cycles : forall ord E, (forall l, Permutation (ord l) l) ->
  exists loops, get_closed_loops ord E = Some loops
    /\ (forall l, In l loops -> cycle E l)
    /\ forall i j l1 l2 c, i < j -> nth_error loops i = Some l1 -> nth_error loops j = Some l2 ->
         ~ rotation l1 (l2 ++ c).
Proof.
  intros ord E P. eexists; split; [apply loops_eq, P|]. split.
  - intros l H; exact (keep_cycle _ _ _ H).
  - intros i j l1 l2 c Hij G1 G2. exact (keep_distinct _ _ _ _ _ _ Hij G1 G2 c).
Qed.
(** Two disjoint loops and an edge between them, visited in reverse key order *)
Example C16_example :
  get_closed_loops (@rev nat) [(0, 1); (1, 2); (2, 0); (2, 3); (3, 4); (4, 3)]
  = Some [[3; 4]; [0; 1; 2]].
Proof. reflexivity. Qed.

(** ** C17 *)

(** A loop is reported if and only if the selected edges contain a directed cycle; moreover the
    nodes on reported loops are exactly the nodes that lie on some cycle.  [get_closed_loops] always
    returns ([Some]): the search terminates. *)
Theorem C17_complete : forall ord E, (forall l, Permutation (ord l) l) ->
  exists loops, get_closed_loops ord E = Some loops
    /\ (loops <> [] <-> exists c, cycle E c)
    /\ forall x, (exists l, In l loops /\ In x l) <-> (exists c, cycle E c /\ In x c).
Proof.
  intros ord E P. eexists; split; [apply loops_eq, P|].
  assert (A : forall x, (exists l, In l (keep_loops (found E (ord (keys (build_graph E))))) /\ In x l)
                        <-> (exists c, cycle E c /\ In x c)).
  { intros x; split.
    - intros (l & H & I); exists l; split; [exact (keep_cycle _ _ _ H)|exact I].
    - intros (c & C & I); exact (node_reported _ P _ _ C _ I). }
  split; [|exact A]. split.
  - destruct (keep_loops _) as [|l ls] eqn:K; [congruence|]. intros _; exists l.
    apply (keep_cycle ord). rewrite K; now left.
  - intros (c & C) Q. destruct C as (N & x & t & -> & P').
    destruct (proj2 (A x)) as (l & H & _); [exists (x :: t); split; [split; [exact N|exists x, t; auto]|now left]|].
    rewrite Q in H; destruct H.
Qed.
(** The cycle is only reached after a dead end (node 5) and a node visited on the way *)
Example C17_example_cycle :
  get_closed_loops (fun l => l) [(0, 5); (0, 1); (1, 2); (2, 3); (3, 1)] = Some [[2; 3; 1]].
Proof. reflexivity. Qed.
Example C17_example_acyclic :
  get_closed_loops (fun l => l) [(0, 1); (0, 2); (1, 3); (2, 3); (3, 4)] = Some [].
Proof. reflexivity. Qed.

(** ** C40 *)

(** The full statement (the list of loops does not depend on the map order) is false, even when
    lists are compared up to rotation: with the same five selected edges one order reports two loops
    and another three. *)
Theorem C40_loop_list_refuted : exists E ord1 ord2 loops1 loops2,
  loopless E /\ (forall l, Permutation (ord1 l) l) /\ (forall l, Permutation (ord2 l) l)
  /\ get_closed_loops ord1 E = Some loops1 /\ get_closed_loops ord2 E = Some loops2
  /\ length loops1 <> length loops2.
Proof.
  exists [(0, 1); (0, 2); (1, 0); (1, 2); (2, 0)], (fun l => l),
         (fun l => match l with [0; 1; 2] => [1; 0; 2] | _ => l end), [[1; 0]; [2; 0]; [2; 0; 1]],
         [[0; 1]; [2; 0; 1]].
  split; [|split; [|split; [|split; [|split]]]].
  - intros u H; cbn in H. repeat (destruct H as [H|H]; [congruence|]); exact H.
  - intros l; apply Permutation_refl.
  - intros l. repeat (match goal with |- Permutation (match ?x with _ => _ end) _ => destruct x end;
      try apply Permutation_refl). apply perm_swap.
  - reflexivity.
  - reflexivity.
  - discriminate.
Qed.
(** What does hold: whether exactly one loop is reported (the case in which a tour is recognised) and
    that loop as a cyclic sequence do not depend on the order, as long as no edge goes from a node to
    itself.  Also the set of nodes on reported loops does not depend on it.
    Missing against the full statement: lists of several loops, see the refutation above. *)
Theorem C40_single_loop_partial : forall ord1 ord2 E h,
  (forall l, Permutation (ord1 l) l) -> (forall l, Permutation (ord2 l) l) -> loopless E ->
  get_closed_loops ord1 E = Some [h] ->
  exists h', get_closed_loops ord2 E = Some [h'] /\ rotation h h'.
Proof. exact single_order_free. Qed.
Theorem C40_nodes_partial : forall ord1 ord2 E loops1 loops2,
  (forall l, Permutation (ord1 l) l) -> (forall l, Permutation (ord2 l) l) ->
  get_closed_loops ord1 E = Some loops1 -> get_closed_loops ord2 E = Some loops2 ->
  forall x, (exists l, In l loops1 /\ In x l) <-> (exists l, In l loops2 /\ In x l).
Proof.
  intros ord1 ord2 E l1 l2 P1 P2 G1 G2 x.
  destruct (C17_complete ord1 E P1) as (l1' & G1' & _ & A1).
  destruct (C17_complete ord2 E P2) as (l2' & G2' & _ & A2).
  rewrite G1 in G1'; rewrite G2 in G2'; injection G1' as <-; injection G2' as <-.
  rewrite A1, A2; tauto.
Qed.
(** A tour together with a chord: the single loop is found with both orders, rotated *)
Example C40_example : loopless [(0, 1); (0, 2); (1, 2); (2, 0)]
  /\ get_closed_loops (fun l => l) [(0, 1); (0, 2); (1, 2); (2, 0)] = Some [[1; 2; 0]]
  /\ get_closed_loops (@rev nat) [(0, 1); (0, 2); (1, 2); (2, 0)] = Some [[0; 1; 2]].
Proof.
  split; [|split; reflexivity].
  intros u H; cbn in H. repeat (destruct H as [H|H]; [congruence|]); exact H.
Qed.
(** Without the hypothesis on self-loops the number of loops may differ *)
Example C40_self_loop :
  get_closed_loops (fun l => l) [(0, 0); (0, 1); (1, 0)] = Some [[0]; [1; 0]]
  /\ get_closed_loops (@rev nat) [(0, 0); (0, 1); (1, 0)] = Some [[0; 1]].
Proof. split; reflexivity. Qed.

Print Assumptions C16_loops_are_cycles.
Print Assumptions C17_complete.
Print Assumptions C40_loop_list_refuted.
Print Assumptions C40_single_loop_partial.
Print Assumptions C40_nodes_partial.
