(** * C83: the search for a closed loop of a given length (get_loops, Impa.py:998-1073) *)
From Verif Require Import Arr ArrFacts SpecGraph M_Tsp_Loops P_Tsp_Loops M_Tsp_GetLoops P_Tsp_GetLoops.
Local Open Scope nat_scope.

(** The search always ends.  A list that it returns is a simple directed cycle of the given edges and
    has the length asked for. *)
Theorem C83_sound : forall E L, exists r, get_loops E L = Some r /\
  forall l, r = Some l -> cycle E l /\ length l = L.
Proof.
  intros E L. destruct (get_loops_spec E L) as (r & Er & Hr). exists r. split; [exact Er|]. intros l ->.
  destruct Hr as (s & e & He & (N & Le) & ->). destruct (loop_from_sound E s e He N) as (t & Et & _ & C). rewrite Et in *. auto.
Qed.
(** A triangle, a pair, and an edge between them: each loop is found by its length, no other length is. *)
Example C83_sound_example :
  let E := [(0, 1); (1, 2); (2, 0); (2, 3); (3, 4); (4, 3)] in
  get_loops E 3 = Some (Some [1; 2; 0]) /\ get_loops E 2 = Some (Some [4; 3]) /\ get_loops E 1 = Some None /\ get_loops E 5 = Some None.
Proof. repeat split. Qed.

(** Where at most one edge enters every node, a loop is returned if and only if there is a cycle of
    that length.  (Full statement: for any edges.  It is false, [C83_complete_refuted].) *)
Theorem C83_complete_partial : forall E L, (forall u u' v, In (u, v) E -> In (u', v) E -> u = u') ->
  ((exists l, get_loops E L = Some (Some l)) <-> exists c, cycle E c /\ length c = L).
Proof.
  intros E L H1. split.
  - intros (l & H). destruct (C83_sound E L) as (r & Er & Hr). rewrite H in Er. injection Er as <-. exists l. now apply Hr.
  - intros (c & Hc & Lc). destruct (get_loops_spec E L) as ([l|] & Er & Hr); [eauto|]. exfalso. exact (Hr H1 c Hc Lc).
Qed.
(** Two loops, and nodes 5 and 6 hanging off the first: at most one edge enters every node. *)
Example C83_complete_example :
  let E := [(0, 1); (1, 5); (5, 6); (1, 2); (2, 0); (3, 4); (4, 3)] in
  (forall u u' v, In (u, v) E -> In (u', v) E -> u = u') /\
  get_loops E 3 = Some (Some [1; 2; 0]) /\ get_loops E 2 = Some (Some [4; 3]) /\ get_loops E 4 = Some None.
Proof.
  cbv zeta. split; [|repeat split]. intros u u' v H H'. cbn in H, H'.
  repeat (destruct H as [H|H]; [injection H as <- <-; repeat (destruct H' as [H'|H']; [now injection H'|]); destruct H'|]). destruct H.
Qed.

(** In general a cycle can be missed: the walk from node 0 marks nodes 1 and 2 as visited without
    returning to 0, and no loop is then looked for from them.  The test of the C++ code (C17) does
    find it. *)
Theorem C83_complete_refuted : exists E L c, cycle E c /\ length c = L /\ get_loops E L = Some None /\
  get_closed_loops (fun k => k) E = Some [[2; 1]].
Proof.
  exists [(0, 1); (1, 2); (2, 1)], 2, [1; 2]. split; [|repeat split].
  split; [repeat constructor; cbn; intuition congruence|]. exists 1, [2]. split; [reflexivity|]. cbn [app].
  rewrite !path_in_cons. split; [cbn; auto|]. split; [cbn; auto|]. apply path_in_one.
Qed.

Print Assumptions C83_sound.
Print Assumptions C83_complete_partial.
Print Assumptions C83_complete_refuted.
