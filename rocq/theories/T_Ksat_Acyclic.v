(** * C58 and C61 for formulas without cycles *)
From Verif Require Import Num NumFacts Arr ArrFacts Spec SpecRun SpecForest SpecAcyclic MinSum P_Acyclic.
From Verif Require Import M_Tsp_Run M_Ksat_Py P_Ksat_Py P_Ksat_Gen P_PyRef_Ksat P_Forest P_Ksat_Tree P_Ksat_Opt.
From Verif Require Import M_InOut M_Runs T_Schedule T_Ksat_Py T_PyRef_Run T_Ksat_Tree T_Ksat_Limit.
From Coq Require Import Permutation.
From Verif Require Import Spec Num.
Local Open Scope nat_scope.

(** The formulas of C58 and C61 are those without cycles. *)
Theorem C58_acyclic :
  forall conx : list (list nat), Forall (fun c => c <> []) conx -> tree_like conx <-> acyclic conx.
Proof. exact tree_like_acyclic. Qed.

(** C58 in these words. *)
Theorem C58_acyclic_optimal :
  forall (nv k : nat) (sol : list bool) (ord ord2 ord3 : list nat -> list nat) (draws : list draw)
         (metrics : list Qc) (iters : nat) (alpha theta : Qc) (post_process : bool) (pp : nat)
         (f : formula) (x : list bool),
    2 <= k -> length sol = nv -> Forall (valid_draw nv k) draws -> length metrics = nv ->
    (forall l, Permutation l (ord l)) -> (forall l, Permutation l (ord2 l)) -> (forall l, Permutation l (ord3 l)) ->
    create_formula nv k sol ord draws = Some f -> acyclic (y_conx f) -> length (y_conx f) <= iters ->
    length x = nv -> satisfies (y_conx f) (y_types f) x ->
    (forall y, length y = nv -> satisfies (y_conx f) (y_types f) y ->
       (exists v, In v (y_used f) /\ nth v y false <> nth v x false) ->
       (cost_on (y_used f) metrics x + theta < cost_on (y_used f) metrics y)%Qc /\
       (cost_on (y_used f) metrics x - theta < cost_on (y_used f) metrics y)%Qc) ->
    exists ext o,
      py_ksat_run nv k sol ord draws (map Fin metrics) iters false (Fin alpha) (Fin theta) post_process pp ord2 ord3
        = Some (f, map Fin ext, o) /\
      (forall v, In v (y_used f) -> nth_error (k_hd o) v = Some (bit (nth v x false))) /\
      k_flag o = true.
Proof.
  intros nv k sol ord ord2 ord3 draws metrics iters alpha theta post pp f x Hk Ls Hd Lm P1 P2 P3 Ef Ac Hit Lx Sx Opt.
  destruct (call_facts nv k sol ord ord2 ord3 draws metrics theta f x) as (M & (_ & Lc & Sc & _) & _ & _); auto.
  apply C58_tree_optimal; auto; [|lia]. apply C58_acyclic; auto.
  destruct Sc as [_ F]. eapply Forall_impl; [|exact F]. intros c Hc ->. cbn in Hc. lia.
Qed.

(** With filtering (C61). *)
Theorem C61_acyclic_eventually :
  forall (nv k : nat) (sol : list bool) (ord ord2 ord3 : list nat -> list nat) (draws : list draw)
         (metrics : list Qc) (flag : bool) (alpha theta : Qc) (post_process : bool) (pp : nat)
         (f : formula) (x : list bool),
    2 <= k -> length sol = nv -> Forall (valid_draw nv k) draws -> length metrics = nv ->
    (forall l, Permutation l (ord l)) -> (forall l, Permutation l (ord2 l)) -> (forall l, Permutation l (ord3 l)) ->
    create_formula nv k sol ord draws = Some f -> acyclic (y_conx f) -> (0 <= alpha)%Qc -> (alpha < 1)%Qc ->
    length x = nv -> satisfies (y_conx f) (y_types f) x ->
    (forall y, length y = nv -> satisfies (y_conx f) (y_types f) y ->
       (exists v, In v (y_used f) /\ nth v y false <> nth v x false) ->
       (cost_on (y_used f) metrics x + theta < cost_on (y_used f) metrics y)%Qc /\
       (cost_on (y_used f) metrics x - theta < cost_on (y_used f) metrics y)%Qc) ->
    exists T, forall iters, T <= iters -> exists ext o,
      py_ksat_run nv k sol ord draws (map Fin metrics) iters flag (Fin alpha) (Fin theta) post_process pp ord2 ord3
        = Some (f, map Fin ext, o) /\
      (forall v, In v (y_used f) -> nth_error (k_hd o) v = Some (bit (nth v x false))) /\
      k_flag o = true.
Proof.
  intros nv k sol ord ord2 ord3 draws metrics flag alpha theta post pp f x Hk Ls Hd Lm P1 P2 P3 Ef Ac A0 A1 Lx Sx Opt.
  destruct (call_facts nv k sol ord ord2 ord3 draws metrics theta f x) as (M & (_ & Lc & Sc & _) & _ & _); auto.
  apply C61_tree_eventually; auto. apply C58_acyclic; auto.
  destruct Sc as [_ F]. eapply Forall_impl; [|exact F]. intros c Hc ->. cbn in Hc. lia.
Qed.

(** the chain of [C58_example] has no cycle; the triangle of [C58_any_formula_refuted] has one; so
    have two clauses with two common variables *)
Example C58_acyclic_example :
  acyclic [[1; 0]; [1; 2]; [2; 3]] /\
  cycle (fun c => nth c [[1; 0]; [1; 2]; [2; 0]] []) (seq 0 3) [(0, 1); (1, 2); (2, 0)] /\
  ~ acyclic [[0; 1; 2]; [2; 1; 3]].
Proof.
  split; [|split].
  - apply C58_acyclic; [repeat constructor; discriminate|]. exists [2; 1; 0]. split.
    + cbn. apply perm_trans with [1; 2; 0]; [constructor|]. apply perm_trans with [1; 0; 2]; repeat constructor.
    + apply forest_cons with (v := 2); [cbn; auto|leafc|].
      apply forest_cons with (v := 1); [cbn; auto|leafc|].
      apply forest_cons with (v := 1); [cbn; auto|leafc|constructor].
  - split; [cbn; lia|]. repeat split; try (repeat constructor; cbn; intuition discriminate); try (intros c; cbn; tauto).
    all: destruct j as [|[|[|j]]]; cbn in *; intuition lia.
  - intro H. apply (H [(0, 1); (1, 2)]). split; [cbn; lia|].
    repeat split; try (repeat constructor; cbn; intuition discriminate); try (intros c; cbn; tauto).
    all: destruct j as [|[|j]]; cbn in *; intuition lia.
Qed.

Print Assumptions C58_acyclic.
Print Assumptions C58_acyclic_optimal.
Print Assumptions C61_acyclic_eventually.
