(** * C85 with a condition on the rewards only *)
From Verif Require Import Num NumFacts Arr Spec ArrFacts M_Kc_Py M_Kc_Summary M_Runs M_PyRef_Run M_PyRef_Summary
  SpecKc SpecCover SpecRange P_Ksat_Py P_InOut P_Tsp_Constraints P_Kc_Call P_Kc_Range T_PyRef_Run T_Kc_Best T_Kc_Summary T_Kc_Range T_PyRef_Summary.
From Verif Require Import Spec Num.
Local Open Scope nat_scope.

Definition between (B x : Qc) : Prop := (- B <= x /\ x <= B)%Qc.

(** With rewards between -333333 and 333333 and a filter factor in (0, 1], the library and the pure
    Python object give the same answer after any number of iterations. *)
Theorem C85_same_answer_bounded_partial :
  forall iters flag (alpha : Qc) thr pp caps types (rt : list Qc) (rp : list (list Qc)) P o teams,
    Forall (fun ty => 1 <= ty <= 5) types -> types <> [] ->
    kc_initialize caps types = Some o -> room caps types (o_combos o) -> generated caps types (o_combos o) teams ->
    nle thr n0 -> length rt = length teams -> shape (length teams) P rp -> 2 <= P -> 2 <= length teams ->
    (* missing: as many projects as teams, no iteration, filtering with a factor outside (0, 1], larger rewards *)
    P <> length teams -> 1 <= iters -> (flag = true -> 0 < alpha /\ alpha <= 1)%Qc ->
    Forall (between (zq 333333)) rt -> Forall (Forall (between (zq 333333))) rp ->
    exists a, kc_call iters flag (Fin alpha) thr pp 1 caps types (map Fin rt) (inj rp) = Some a /\
      ref_kc_call iters flag (Fin alpha) thr pp caps types (map Fin rt) (inj rp) = Some a.
Proof.
  intros iters flag alpha thr pp caps types rt rp P o teams Ht Hne E Hroom Hg Hthr Lr Sr HP HT HPT Hit Ha Bt Bp.
  destruct (call_instance caps types o teams P rt rp) as (Inst & wf & Ec & HD); auto.
  apply C85_same_answer_partial with (P := P) (o := o) (teams := teams); auto.
  { intros F. destruct (Ha F) as (A & _). intros ->. discriminate. }
  intros i st (Hi & _). rewrite transpose_inj. apply (kc_iterates_small (length teams) (length caps) P (o_weights o) (columns P rp) rt caps flag alpha); auto; try lia.
  apply within_moderate with (zq 333333); [lia| |vm_compute; discriminate]. split; [vm_compute; discriminate|]. split.
  - intros x Hx. rewrite Forall_forall in Bt. apply (Bt (nth x rt 0%Qc)). apply nth_In. lia.
  - intros p x Hp Hx. unfold qat, columns. rewrite nth_mapseq by auto.
    destruct Sr as [Lp Fp]. rewrite (nth_indep _ 0%Qc (nth p [] 0%Qc)) by (rewrite map_length; lia).
    rewrite (map_nth (fun r => nth p r 0%Qc)). rewrite Forall_forall in Bp, Fp.
    assert (In (nth x rp []) rp) as I by (apply nth_In; lia). specialize (Bp _ I). rewrite Forall_forall in Bp.
    apply (Bp (nth p (nth x rp []) 0%Qc)). apply nth_In. rewrite (Fp _ I). exact Hp.
Qed.

Example C85_bounded_example :
  exists o, Forall (fun ty => 1 <= ty <= 5) [1; 3] /\
    kc_initialize [2] [1; 3] = Some o /\ generated [2] [1; 3] (o_combos o) sum_teams /\ room [2] [1; 3] (o_combos o) /\
    length sum_rt = length sum_teams /\ shape (length sum_teams) 4 sum_rp /\ 4 <> length sum_teams /\
    Forall (between (zq 333333)) sum_rt /\ Forall (Forall (between (zq 333333))) sum_rp.
Proof.
  destruct (sum_setup [1; 3] sum_teams [(1, 1)]) as [G Ro]; [now left|].
  eexists. split; [repeat constructor; lia|]. split; [vm_compute; reflexivity|]. split; [exact G|]. split; [exact Ro|].
  split; [reflexivity|]. split; [split; [reflexivity|repeat constructor]|]. split; [cbn; lia|].
  split; repeat constructor; vm_compute; discriminate.
Qed.

Print Assumptions C85_same_answer_bounded_partial.
