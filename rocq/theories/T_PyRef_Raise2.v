(** * Property C106: when the pure Python K-SAT and KC-MWM solvers raise an exception. *)
From Verif Require Import Num NumFacts Arr ArrFacts Spec SpecRun.
From Verif Require Import M_Ksat_Py P_Ksat_Py P_Ksat_Gen M_PyRef M_PyRef_Kc M_PyRef_Ksat M_PyRef_Run P_PyRef P_PyRef_Run T_PyRef_Run.
From Verif Require Import M_Knapsack P_Team_Knapsack P_Kc_Run P_PyRef_Raise2.
From Coq Require Import Permutation.
Local Open Scope nat_scope.

Lemma first_step_none {S} k (s : S) body : 0 < k -> body s 0 = None -> for_up 0 k s body = None.
Proof. intros Hk H. unfold for_up. destruct k; [lia|]. cbn [Nat.sub seq foldM]. rewrite H. reflexivity. Qed.
Lemma filtering_zero iter m old : py_filtering true (Fin 0) iter m old = None.
Proof. unfold py_filtering. replace (neqb (Fin 0) n0) with true by reflexivity. cbn [negb]. rewrite !andb_false_r. reflexivity. Qed.

(** K-SAT, on every random instance: exactly if it filters with [alpha = 0] *)
Theorem C106_ksat :
  forall (nv k : nat) (sol : list bool) (ord : list nat -> list nat) (draws : list draw)
         (metrics : list Qc) (iters : nat) (flag : bool) (alpha : Qc) (thr : num),
    2 <= k -> length sol = nv -> Forall (valid_draw nv k) draws -> length metrics = nv ->
    (forall l, Permutation l (ord l)) ->
    exists f, create_formula nv k sol ord draws = Some f /\
      (reference_ksat nv f (map Fin metrics) iters flag (Fin alpha) thr = None <->
       0 < iters /\ flag = true /\ alpha = 0%Qc).
Proof.
  intros nv k sol ord draws metrics iters flag alpha thr Hk Ls Hd Lm Hp.
  destruct (create_formula_ok nv k sol ord draws) as (f & E & W & Q & N & _); auto; [lia|].
  exists f. split; [exact E|].
  assert (G : forall fl, (fl = true -> alpha <> 0%Qc) -> reference_ksat nv f (map Fin metrics) iters fl (Fin alpha) thr <> None).
  { intros fl H. destruct (ksat_runs_agree nv k f metrics iters fl alpha thr Hk W (q_size _ _ _ _ Q) (q_once _ _ _ _ Q) N Lm H)
      as (r & _ & R2 & _). congruence. }
  split.
  - intros R. destruct flag; [|destruct (G false ltac:(discriminate) R)].
    destruct (Qc_eq_dec alpha 0%Qc) as [->|Na]; [|destruct (G true (fun _ => Na) R)].
    destruct iters; [|split; [lia|auto]]. destruct (G false ltac:(discriminate)). exact R.
  - intros (Hi & -> & ->). unfold reference_ksat, py_ksat_reference. destruct (py_ksat_initial _ _ _ _) as [m|]; [|reflexivity].
    cbn [bind]. rewrite first_step_none; [reflexivity|exact Hi|]. unfold py_ksat_step.
    destruct (py_ksat_update _ _ _ _ _); [|reflexivity]. cbn [bind]. rewrite filtering_zero. reflexivity.
Qed.

(** KC-MWM, on whatever arrays: if it does no iteration, or filters with [alpha = 0] *)
Theorem C106_kc : forall T D P W R reward caps iters flag alpha,
  iters = 0 \/ (flag = true /\ alpha = n0) -> reference_kc T D P W R reward caps iters flag alpha = None.
Proof.
  intros T D P W R reward caps iters flag alpha H. unfold reference_kc, py_kc_reference, py_kc_iterate.
  destruct (py_kc_initial _ _ _ _) as [m|]; [|reflexivity]. cbn [bind].
  destruct (Nat.eq_dec iters 0) as [->|Ni]; [reflexivity|]. destruct H as [H|(-> & ->)]; [congruence|].
  rewrite first_step_none; [reflexivity|lia|]. unfold py_kc_step.
  destruct (py_kc_departments _ _ _ _ _ _); [|reflexivity]. cbn [bind]. unfold n0 at 1. rewrite filtering_zero. reflexivity.
Qed.
(** KC-MWM, on every instance: exactly then, also with as many projects as teams and with messages of any size *)
Theorem C106_kc_raises : forall T D P W R reward caps iters flag alpha,
  kc_instance T D P W R reward caps -> 2 <= P -> 2 <= T -> D <> 0 ->
  (reference_kc T D P W (inj R) (map Fin reward) caps iters flag (Fin alpha) = None <->
   iters = 0 \/ (flag = true /\ alpha = 0%Qc)).
Proof.
  intros T D P W R reward caps iters flag alpha (HW & HR & Hr & Hc & Hp & Hfit & Htwo) HP HT HD.
  split; [|intros [H|[H H']]; apply C106_kc; [left; exact H|right; split; [exact H|subst; reflexivity]]].
  intros E. destruct (Nat.eq_dec iters 0) as [Z|Z]; [auto|right].
  assert (Ha : (flag = true -> alpha <> 0%Qc) -> False).
  2:{ destruct flag; [|destruct Ha; discriminate]. split; [reflexivity|].
      destruct (Qc_eq_dec alpha 0%Qc) as [A|A]; [exact A|destruct Ha; auto]. }
  intros Ha. unfold reference_kc, py_kc_reference, py_kc_iterate in E.
  destruct (py_kc_initial_ok T D W reward HW Hr) as (K & EK & SK & _). rewrite EK in E. cbn [bind] in E.
  assert (In_part : forall d t, d < D -> In t (nth d (map (participants T) W) []) -> nth t (nth d W []) 0 <> 0).
  { intros d t Hd Hin.
    rewrite (nth_indep _ [] (participants T [])) in Hin by (rewrite map_length; destruct HW; lia).
    rewrite map_nth in Hin. unfold participants in Hin. apply filter_In in Hin. destruct Hin as [_ Hin].
    apply negb_true_iff, Nat.eqb_neq in Hin. exact Hin. }
  destruct (kc_run_some T D P flag alpha W R reward caps) with (iters := iters) (K := K) as (p & e & E1 & E2 & E3); auto.
  { intros d ws Hd. destruct (Hp d ws Hd) as (t & w & Gt & Nw).
    assert (Lw : length ws = T) by (eapply shape_row; eauto).
    intros X. assert (I : In t (participants T ws)); [|rewrite X in I; destruct I].
    unfold participants. apply filter_In. assert (t < length ws) by (apply nth_error_Some; congruence).
    split; [apply in_seq; lia|]. rewrite (nth_error_nth _ _ _ Gt). apply negb_true_iff, Nat.eqb_neq; auto. }
  { intros d1 d2 d3 l H1 H2 H3 I1 I2 I3. apply In_part in I1, I2, I3; auto.
    destruct (Nat.eq_dec d1 d2); auto. destruct (Nat.eq_dec d1 d3); auto. destruct (Nat.eq_dec d2 d3); auto. exfalso.
    assert (Srt : exists a b c, a < b < c /\ c < D /\ nth l (nth a W []) 0 <> 0 /\ nth l (nth b W []) 0 <> 0 /\ nth l (nth c W []) 0 <> 0).
    { destruct (Nat.lt_total d1 d2) as [|[|]], (Nat.lt_total d1 d3) as [|[|]], (Nat.lt_total d2 d3) as [|[|]]; try lia;
        first [exists d1, d2, d3; repeat split; auto; lia | exists d1, d3, d2; repeat split; auto; lia
             | exists d2, d1, d3; repeat split; auto; lia | exists d2, d3, d1; repeat split; auto; lia
             | exists d3, d1, d2; repeat split; auto; lia | exists d3, d2, d1; repeat split; auto; lia]. }
    destruct Srt as (a & b & c & Hab & Hc' & N1 & N2 & N3). destruct (Htwo a b c l Hab Hc') as [|[|]]; auto. }
  { lia. }
  rewrite E1 in E. cbn [bind] in E. rewrite E2 in E. cbn [bind] in E. unfold np_add in E.
  rewrite map_length, E3, Hr, Nat.eqb_refl in E. cbn [bind] in E. discriminate.
Qed.

Example C106_ksat_example :
  Forall (valid_draw 4 2) sample_draws /\
  option_map (fun f => (reference_ksat 4 f (map Fin (map zq [3; -4; 1; -2]%Z)) 1 true (Fin 0) n0,
    match reference_ksat 4 f (map Fin (map zq [3; -4; 1; -2]%Z)) 0 true (Fin 0) n0 with Some _ => true | None => false end))
    (create_formula 4 2 [true; false; true; false] (fun l => l) sample_draws) = Some (None, true).
Proof. split; [exact sample_draws_valid|vm_compute; reflexivity]. Qed.
Example C106_kc_example :
  kc_instance 3 2 2 kcW (kcR (-4)%Z) kc_reward3 [3; 2] /\
  reference_kc 3 2 2 kcW (inj (kcR (-4)%Z)) (map Fin kc_reward3) [3; 2] 0 false n0 = None /\
  reference_kc 3 2 2 kcW (inj (kcR (-4)%Z)) (map Fin kc_reward3) [3; 2] 1 false n0 <> None.
Proof.
  split; [apply kc_instance3; repeat constructor|]. split; [vm_compute; reflexivity|vm_compute; discriminate].
Qed.

(** as many projects as teams, messages above 1000000, two filtered iterations *)
Definition c106_R : list (list Qc) := map (map zq) [[8000000; 1; 2]; [9000000; 2; 1]; [8000000; 3; 0]]%Z.
Example C106_kc_square_example :
  kc_instance 3 2 3 kcW c106_R kc_reward3 [3; 2] /\
  option_map (fun st => existsb (fun v => nlt (zn 1000000) v) (kp_oric2team st))
    (py_kc_iterate 2 true (Fin (Q2Qc (1 # 2))) 3 2 3 [3; 2] kcW (map Fin kc_reward3) (inj c106_R)) = Some true /\
  reference_kc 3 2 3 kcW (inj c106_R) (map Fin kc_reward3) [3; 2] 2 true (Fin (Q2Qc (1 # 2))) <> None /\
  reference_kc 3 2 3 kcW (inj c106_R) (map Fin kc_reward3) [3; 2] 2 true n0 = None.
Proof.
  split; [|split; [vm_compute; reflexivity|split; [vm_compute; discriminate|vm_compute; reflexivity]]].
  destruct (kc_instance3 (kcR (-4)%Z)) as (H1 & _ & H2); [repeat constructor|].
  split; [exact H1|]. split; [repeat constructor|exact H2].
Qed.

Print Assumptions C106_ksat.
Print Assumptions C106_kc.
Print Assumptions C106_kc_raises.
