(** * Property C97: variables that occur with one sign only. *)
From Verif Require Import Arr ArrFacts MinSum NumFacts SpecRun SpecLiterals M_InOut M_Runs M_Ksat_Py P_InOut P_Runs P_Schedule.
From Verif Require Import P_Ksat_Py P_Ksat_Gen P_Kc_Range P_Ksat_Range T_Ksat_Range T_Ksat_Py P_Ksat_Opt.
From Coq Require Import Permutation.
From Verif Require Import Spec Num.
Local Open Scope nat_scope.

Lemma bounded (l : list Qc) : exists B, (0 <= B)%Qc /\ forall x, In x l -> (- B <= x /\ x <= B)%Qc.
Proof.
  induction l as [|a l (B & HB & IH)].
  - exists 0%Qc. split; [qlra|]. intros x [].
  - destruct (Qclt_le_dec a 0) as [N|N].
    + exists (B - a)%Qc. split; [qlra|]. intros x [->|I]; [|specialize (IH x I)]; split; qlra.
    + exists (B + a)%Qc. split; [qlra|]. intros x [->|I]; [|specialize (IH x I)]; split; qlra.
Qed.

(** Messages to a variable never point away from its literals: whatever the metrics, initial messages, number of iterations
    and (with a factor in [0, 1]) filter, the output of a variable that no clause contains negatively is at most 0, and that
    of a variable that no clause contains positively is at least 0. *)
Theorem C97_sign :
  forall (iters nv nc k : nat) (used : list nat) (metrics : list Qc) (conx : list (list nat))
         (types : list (list Z)) (V0 : list (list Qc)) (varconx : list (list nat)) (flag : bool) (alpha : Qc),
    2 <= k -> length metrics = nv -> shape nc k conx -> shape nc k types -> shape nc nv V0 ->
    (forall c cx tys, nth_error conx c = Some cx -> nth_error types c = Some tys -> clause_wf nv k cx tys) ->
    length varconx = nv -> Forall (fun x => x < nv) used ->
    (forall x l, nth_error varconx x = Some l -> NoDup l /\ Forall (fun c => c < nc) l) ->
    (forall j, j < nv -> ~ In j used -> nth j varconx [] = []) ->
    (flag = true -> (0 <= alpha /\ alpha <= 1)%Qc) ->
    exists ext : list Qc,
      wrapper_ksat iters nv nc (length used) (Fin alpha) flag used (concat varconx)
        (map (@length nat) varconx) (concat conx) (concat types) (map Fin metrics) (concat (inj V0)) k
      = Some (map Fin ext) /\ length ext = nv /\
      forall x, x < nv ->
        (literal_count conx types x false = 0 -> (nth x ext 0 <= 0)%Qc) /\
        (literal_count conx types x true = 0 -> (0 <= nth x ext 0)%Qc).
Proof.
  intros iters nv nc k used metrics conx types V0 varconx flag alpha Hk Hm Hc Ht HV Hwf Hv Hu Hin Hun Hfl.
  destruct (bounded (metrics ++ concat V0)) as (B & HB & Bd).
  destruct (C94_range iters nv nc k nc used metrics conx types V0 varconx flag alpha B) as (ext & E & L & R); auto.
  - intros x s _. unfold literal_count. destruct Hc as [<- _]. rewrite <- (seq_length (length conx) 0) at 2. apply NoDup_incl_length; [apply NoDup_filter, seq_NoDup|]. intros a I. apply filter_In in I. apply I.
  - intros x Hx. apply Bd, in_or_app. left. apply nth_In. lia.
  - intros c x Hlt Hx. apply Bd, in_or_app. right. apply in_concat. exists (nth c V0 []). destruct HV as [L1 F].
    assert (I : In (nth c V0 []) V0) by (apply nth_In; lia). split; [exact I|].
    rewrite Forall_forall in F. apply nth_In. rewrite (F _ I). exact Hx.
  - exists ext. split; [exact E|]. split; [exact L|]. intros x Hx. destruct (R x Hx) as [R1 R2]. split; intros Z; rewrite Z, qn_0 in *; qlra.
Qed.

Lemma no_literal nv f v (s : bool) : consistent nv f ->
  (forall c t, in_clause f c v t -> t = if s then 1%Z else (-1)%Z) -> literal_count (y_conx f) (y_types f) v (negb s) = 0.
Proof.
  intros W H. unfold literal_count. apply length_zero_iff_nil.
  destruct (filter _ _) as [|c l] eqn:Ef; auto. exfalso.
  assert (I : In c (c :: l)) by (left; auto). rewrite <- Ef in I. apply filter_In in I as [I1 I2]. apply in_seq in I1.
  unfold has_literal in I2. apply existsb_exists in I2 as ((u, b) & I3 & I4). cbn [fst snd] in I4.
  apply andb_prop in I4 as [Eu Eb]. apply Nat.eqb_eq in Eu. apply Bool.eqb_prop in Eb. subst u b.
  destruct (nth_error (y_conx f) c) as [cx|] eqn:Ec; [|apply nth_error_None in Ec; lia].
  destruct (c_rows _ _ W _ _ Ec) as (ts & Et & Lt).
  rewrite (nth_error_nth _ _ _ Ec), (nth_error_nth _ _ _ Et) in I3. apply In_nth_error in I3 as (j & Ej).
  assert (A : nth_error cx j = Some v /\ nth_error (signs ts) j = Some (negb s)).
  { clear -Ej. revert j Ej. generalize (signs ts). induction cx as [|a cx IH]; intros [|b sg] [|j] E; cbn in *; try discriminate; auto.
    injection E as -> ->. auto. }
  destruct A as [A1 A2]. unfold signs in A2. rewrite nth_error_map in A2. destruct (nth_error ts j) as [t|] eqn:Ej2; [|discriminate].
  assert (T : in_clause f c v t) by (exists j; unfold get2, get; rewrite Ec, Et; auto).
  specialize (H _ _ T). subst t. destruct s; discriminate.
Qed.

(** A complete call without post-processing: a variable that occurs only positively and whose metric is at most the threshold
    is set, one that occurs only negatively and whose metric is above the threshold is not, after any number of iterations;
    so every clause with such a variable is true. *)
Theorem C97_decision :
  forall (nv k : nat) (sol : list bool) (ord ord2 ord3 : list nat -> list nat) (draws : list draw)
         (metrics : list Qc) (iters : nat) (flag : bool) (alpha theta : Qc) (pp : nat),
    2 <= k -> length sol = nv -> Forall (valid_draw nv k) draws -> length metrics = nv ->
    (forall l, Permutation l (ord l)) -> (forall l, Permutation l (ord2 l)) -> (forall l, Permutation l (ord3 l)) ->
    (flag = true -> (0 <= alpha /\ alpha <= 1)%Qc) ->
    exists f ext o,
      py_ksat_run nv k sol ord draws (map Fin metrics) iters flag (Fin alpha) (Fin theta) false pp ord2 ord3
        = Some (f, ext, o) /\
      forall v (s : bool), In v (y_used f) ->
        (forall c t, in_clause f c v t -> t = if s then 1%Z else (-1)%Z) ->
        (if s then nth v metrics 0 <= theta else theta < nth v metrics 0)%Qc ->
        nth_error (k_hd o) v = Some (bit s) /\
        forall c t, in_clause f c v t -> clause_true f (k_hd o) c.
Proof.
  intros nv k sol ord ord2 ord3 draws metrics iters flag alpha theta pp Hk Ls Hd Lm P1 P2 P3 Ha.
  destruct (C47_ksat_call nv k sol ord ord2 ord3 draws metrics iters flag alpha (Fin theta) false pp) as
    (f & ext & intr & o & E & W & Li & Le & Hi & Hhd & _); auto.
  exists f, (map Fin ext), o. split; [exact E|]. intros v s Iv Pure Met.
  specialize (Hhd (or_introl eq_refl)).
  assert (Ef : create_formula nv k sol ord draws = Some f /\ exists m, initial_messages nv f (map Fin metrics) = Some m /\
    wrapper_ksat iters nv (y_nc f) (length (y_used f)) (Fin alpha) flag (y_used f) (concat (y_vconx f))
      (map (@length nat) (y_vconx f)) (concat (y_conx f)) (concat (y_types f)) (map Fin metrics) (concat m) k = Some (map Fin ext)).
  { unfold py_ksat_run in E. destruct (create_formula nv k sol ord draws) as [f0|]; [|discriminate]. cbn [bind] in E.
    destruct (initial_messages nv f0 (map Fin metrics)) as [m|] eqn:Em; [|discriminate]. cbn [bind] in E.
    destruct (wrapper_ksat _ _ _ _ _ _ _ _ _ _ _ _ _ _) as [e|] eqn:Ew; [|discriminate]. cbn [bind] in E.
    repeat match type of E with context [bind ?a _] => destruct a; [|discriminate]; cbn [bind] in E end.
    injection E as <- -> _. split; [reflexivity|]. exists m. auto. }
  destruct Ef as (Ef & m & Em & Ew).
  destruct (call_basics nv k sol ord ord2 ord3 draws metrics theta f Hk Ls Hd Lm P1 P2 P3 Ef) as
    (ND & M & (Em' & Lc & Sc & St & SM & Wf & Lv & Hu & Hvar & Hun & _) & _).
  rewrite Em in Em'. injection Em' as ->.
  destruct (C97_sign iters nv (y_nc f) k (y_used f) metrics (y_conx f) (y_types f) M (y_vconx f) flag alpha) as (ext' & Ew' & _ & Sg); auto.
  { intros x l G. destruct (Hvar x l G) as [N1 N2]. split; [exact N1|]. apply Forall_forall. intros c Ic. apply N2 in Ic.
    destruct (Nat.lt_ge_cases c (y_nc f)) as [|Ge]; auto. rewrite nth_overflow in Ic by lia. destruct Ic. }
  rewrite Ew in Ew'. injection Ew' as Q. apply fins_inj in Q. subst ext'.
  assert (Hv : v < nv) by (rewrite Forall_forall in Hu; auto).
  assert (Hd' : nth_error (k_hd o) v = Some (bit s)).
  { rewrite Hhd, map_map, nth_error_map, (nth_error_nth' _ 0%Qc) by lia. cbn [option_map]. f_equal.
    specialize (Hi v Hv). rewrite (proj2 (mem_In v (y_used f)) Iv) in Hi. rewrite Hi.
    pose proof (no_literal nv f v s W Pure) as Z. destruct (Sg v Hv) as [S1 S2]. unfold py_decide, nleb.
    unfold ngt, nlt. destruct s; cbn [negb bit] in *.
    - specialize (S1 Z). destruct (qltb_spec theta (nth v ext 0 + nth v metrics 0))%Qc; [qlra|reflexivity].
    - specialize (S2 Z). destruct (qltb_spec theta (nth v ext 0 + nth v metrics 0))%Qc; [reflexivity|qlra]. }
  split; [exact Hd'|]. intros c t I. exists v, t. split; [exact I|]. exists (bit s). split; [exact Hd'|].
  pose proof (Pure c t I) as ->. destruct s; cbn; [left|right]; split; auto; discriminate.
Qed.

(** ** Examples *)
(** Clauses "0 or 3", "0 or not 1", "not 1 or not 2", "0 or 2": variables 0 and 3 occur only positively, 1 only negatively. *)
Definition pure_draws : list draw := [d2 0 2 true; d2 0 0 false; d2 1 1 false; d2 0 1 true].
Definition pure_call (alpha : num) (iters : nat) :=
  py_ksat_run 4 2 [true; false; true; false] (fun l => l) pure_draws (map zn [-3; -4; 1; 2]%Z) iters true alpha n0 false 2
    (fun l => l) (fun l => l).
Lemma pure_draws_valid : Forall (valid_draw 4 2) pure_draws.
Proof.
  repeat constructor; try (cbn; lia); intros j i s E; destruct j as [|[|j]]; cbn in E; try discriminate; injection E as <- _; lia.
Qed.
Definition pure_formula : option formula := create_formula 4 2 [true; false; true; false] (fun l => l) pure_draws.
(** Variable 0 has metric -3 and is set after any number of iterations; variable 3 shows that the metric has to agree. *)
Example C97_example :
  option_map (fun f => (y_conx f, y_types f)) pure_formula
    = Some ([[0; 3]; [0; 1]; [1; 2]; [0; 2]], [[1; 1]; [1; -1]; [-1; -1]; [1; 1]]%Z) /\
  (forall iters, exists f ext o, pure_call (Fin (Q2Qc (1 # 2))) iters = Some (f, ext, o) /\ nth_error (k_hd o) 0 = Some n1) /\
  option_map (fun r => let '(f, ext, o) := r in (map view ext, map view (k_hd o))) (pure_call (Fin (Q2Qc (1 # 2))) 3)
    = Some ([VFin (-65 # 8); VFin 0; VFin (7 # 2); VFin 0], [VFin 1; VFin 1; VFin 0; VFin 0]).
Proof.
  split; [vm_compute; reflexivity|]. split; [|vm_compute; reflexivity]. intros iters.
  destruct (C97_decision 4 2 [true; false; true; false] (fun l => l) (fun l => l) (fun l => l) pure_draws (map zq [-3; -4; 1; 2]%Z) iters true
    (Q2Qc (1 # 2)) 0%Qc 2) as (f & ext & o & E & H); auto using pure_draws_valid.
  { intros _. split; discriminate. }
  exists f, ext, o. split; [exact E|].
  assert (Ef : pure_formula = Some f).
  { unfold pure_formula. unfold py_ksat_run in E. destruct (create_formula _ _ _ _ _) as [f0|]; [|discriminate]. cbn [bind] in E.
    repeat match type of E with context [bind ?a _] => destruct a; [|discriminate]; cbn [bind] in E end. now injection E as <- _ _. }
  vm_compute in Ef. injection Ef as <-.
  apply (H 0 true); [cbn; auto| |discriminate].
  intros c t (j & J1 & J2). do 4 (destruct c as [|c]; [do 2 (destruct j as [|j]; [vm_compute in J1, J2; congruence|]); destruct j; discriminate|]).
  destruct c; discriminate.
Qed.
(** With a factor of 2 variable 0 is not set. *)
Theorem C97_factor_refuted :
  ~ (forall (nv k : nat) (sol : list bool) (draws : list draw) (metrics : list Qc) (iters : nat) (flag : bool) (alpha theta : Qc)
       (f : formula) ext o (v : nat),
     2 <= k -> length sol = nv -> Forall (valid_draw nv k) draws -> length metrics = nv ->
     py_ksat_run nv k sol (fun l => l) draws (map Fin metrics) iters flag (Fin alpha) (Fin theta) false 2 (fun l => l) (fun l => l)
       = Some (f, ext, o) ->
     In v (y_used f) -> (forall c t, in_clause f c v t -> t = 1%Z) -> (nth v metrics 0 <= theta)%Qc ->
     nth_error (k_hd o) v = Some n1).
Proof.
  intros H.
  destruct (pure_call (zn 2) 3) as [((f, ext), o)|] eqn:E; [|vm_compute in E; discriminate].
  specialize (H 4 2 [true; false; true; false] pure_draws (map zq [-3; -4; 1; 2]%Z) 3 true (zq 2) 0%Qc f ext o 0 (le_n 2) eq_refl
    pure_draws_valid eq_refl E).
  vm_compute in E. injection E as <- _ <-.
  assert (X : Some n0 = Some n1); [|discriminate].
  etransitivity; [|apply H]; [vm_compute; reflexivity|cbn; auto| |discriminate].
  intros c t (j & J1 & J2). do 4 (destruct c as [|c]; [do 2 (destruct j as [|j]; [vm_compute in J1, J2; congruence|]); destruct j; discriminate|]).
  destruct c; discriminate.
Qed.

Print Assumptions C97_sign.
Print Assumptions C97_decision.
Print Assumptions C97_factor_refuted.
