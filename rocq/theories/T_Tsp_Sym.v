(** * Property C60: symmetries of the first stage of a TSP call. *)
From Coq Require Import Permutation.
From Verif Require Import Num NumFacts Arr ArrFacts Spec SpecRun SpecGraph SpecCover MinSum MinSumFacts.
From Verif Require Import P_Tsp_Constraints M_InOut P_InOut M_Tsp_Run P_Tsp_Run P_Tsp_Fin.
From Verif Require Import M_Tsp_Py P_Tsp_Py T_Tsp_Run T_Tsp_Call T_Tsp_Sched T_Tsp_Order.
From Verif Require Import P_Ksat P_PyRef_Ksat P_Assign P_Tsp_Assign T_Tsp_Assign.
Local Open Scope nat_scope.

(** value of edge (i, k) for the decision of the first stage *)
Section Values.
Variables (n : nat) (w w' : nat -> nat -> Qc) (be c : Qc) (f : nat -> nat).
Variables R C DR DC R' C' DR' DC' : nat -> nat -> nat -> Qc.
Definition schedule (w : nat -> nat -> Qc) (R C DR DC : nat -> nat -> nat -> Qc) : Prop :=
  (forall i k, i < n -> k < n -> i <> k -> R 0 i k = 0%Qc /\ C 0 i k = 0%Qc) /\
  (forall t i k, i < n -> k < n -> i <> k ->
     ((exists j, j < n /\ j <> i /\ j <> k /\ DR t i k = (- (w i j + C t i j))%Qc) /\
      (forall j, j < n -> j <> i -> j <> k -> (- DR t i k <= w i j + C t i j)%Qc)) /\
     ((exists l, l < n /\ l <> k /\ l <> i /\ DC t i k = (- (w l k + R t l k))%Qc) /\
      (forall l, l < n -> l <> k -> l <> i -> (- DC t i k <= w l k + R t l k)%Qc)) /\
     R (S t) i k = (be * R t i k + (1 - be) * DR t i k)%Qc /\
     C (S t) i k = (be * C t i k + (1 - be) * DC t i k)%Qc).
Hypothesis H : schedule w R C DR DC.
Hypothesis H' : schedule w' R' C' DR' DC'.

(** transposed costs: rows and columns change places *)
Lemma transposed : (forall i k, i < n -> k < n -> w' i k = w k i) ->
  forall t i k, i < n -> k < n -> i <> k -> R' t i k = C t k i /\ C' t i k = R t k i.
Proof.
  intros Hw. destruct H as (H0 & HS). destruct H' as (H0' & HS'). induction t as [|t IH]; intros i k Hi Hk N.
  - destruct (H0 k i Hk Hi (not_eq_sym N)) as (-> & ->). apply H0'; auto.
  - destruct (HS t k i Hk Hi (not_eq_sym N)) as (((j & J1 & J2 & J3 & J4) & J5) & ((l & L1 & L2 & L3 & L4) & L5) & -> & ->).
    destruct (HS' t i k Hi Hk N) as (((j' & J1' & J2' & J3' & J4') & J5') & ((l' & L1' & L2' & L3' & L4') & L5') & -> & ->).
    destruct (IH i k Hi Hk N) as (-> & ->).
    assert (A : DR' t i k = DC t k i).
    { pose proof (J5' l L1 L2 L3) as X. rewrite Hw in X by auto. destruct (IH i l Hi L1 (not_eq_sym L2)) as (_ & Q). rewrite Q in X.
      pose proof (L5 j' J1' J2' J3') as Y. rewrite Hw in J4' by auto. destruct (IH i j' Hi J1' (not_eq_sym J2')) as (_ & Q'). rewrite Q' in J4'.
      apply Qcle_antisym; rewrite ?J4', ?L4 in *; qlra. }
    assert (B : DC' t i k = DR t k i).
    { pose proof (L5' j J1 J2 J3) as X. rewrite Hw in X by auto. destruct (IH j k J1 Hk J2) as (Q & _). rewrite Q in X.
      pose proof (J5 l' L1' L2' L3') as Y. rewrite Hw in L4' by auto. destruct (IH l' k L1' Hk L2') as (Q' & _). rewrite Q' in L4'.
      apply Qcle_antisym; rewrite ?L4', ?J4 in *; qlra. }
    rewrite A, B. auto.
Qed.

(** relabelled and scaled costs *)
Lemma relabelled : (0 < c)%Qc -> (forall i, i < n -> f i < n) -> (forall i j, i < n -> j < n -> f i = f j -> i = j) ->
  (forall i, i < n -> exists j, j < n /\ f j = i) ->
  (forall i k, i < n -> k < n -> w' i k = (c * w (f i) (f k))%Qc) ->
  forall t i k, i < n -> k < n -> i <> k -> R' t i k = (c * R t (f i) (f k))%Qc /\ C' t i k = (c * C t (f i) (f k))%Qc.
Proof.
  intros Hc Hf Hinj Honto Hw. destruct H as (H0 & HS). destruct H' as (H0' & HS').
  assert (Mono : forall x y, (x <= y -> c * x <= c * y)%Qc).
  { intros x y L. rewrite !(Qcmult_comm c). apply mul_mono; [exact L|qlra]. }
  induction t as [|t IH]; intros i k Hi Hk N.
  - destruct (H0 (f i) (f k)) as (-> & ->); auto. destruct (H0' i k Hi Hk N) as (-> & ->). split; ring.
  - assert (Nf : f i <> f k) by auto.
    destruct (HS t (f i) (f k) (Hf i Hi) (Hf k Hk) Nf) as (((j & J1 & J2 & J3 & J4) & J5) & ((l & L1 & L2 & L3 & L4) & L5) & -> & ->).
    destruct (HS' t i k Hi Hk N) as (((j' & J1' & J2' & J3' & J4') & J5') & ((l' & L1' & L2' & L3' & L4') & L5') & -> & ->).
    destruct (IH i k Hi Hk N) as (-> & ->).
    destruct (Honto j J1) as (m & Hm & <-). destruct (Honto l L1) as (q & Hq & <-).
    assert (A : DR' t i k = (c * DR t (f i) (f k))%Qc).
    { pose proof (J5' m Hm ltac:(congruence) ltac:(congruence)) as X. rewrite Hw in X by auto.
      destruct (IH i m Hi Hm ltac:(congruence)) as (_ & Q). rewrite Q in X.
      pose proof (Mono _ _ (J5 (f j') (Hf _ J1') ltac:(auto) ltac:(auto))) as Y. rewrite Hw in J4' by auto.
      destruct (IH i j' Hi J1' (not_eq_sym J2')) as (_ & Q'). rewrite Q' in J4'.
      apply Qcle_antisym; rewrite ?J4', ?J4 in *; qlra. }
    assert (B : DC' t i k = (c * DC t (f i) (f k))%Qc).
    { pose proof (L5' q Hq ltac:(congruence) ltac:(congruence)) as X. rewrite Hw in X by auto.
      destruct (IH q k Hq Hk ltac:(congruence)) as (Q & _). rewrite Q in X.
      pose proof (Mono _ _ (L5 (f l') (Hf _ L1') ltac:(auto) ltac:(auto))) as Y. rewrite Hw in L4' by auto.
      destruct (IH l' k L1' Hk L2') as (Q' & _). rewrite Q' in L4'.
      apply Qcle_antisym; rewrite ?L4', ?L4 in *; qlra. }
    rewrite A, B. split; ring.
Qed.
End Values.

(** ** Decisions *)
(** first stage of a call for a cost matrix *)
Definition first_stage (o : tsp_options) (n : nat) (C : list (list Qc)) (ord : list nat -> list nat) (p : tsp_params) (st : tsp_state) : Prop :=
  py_call o n (inj C) ord = Some p /\ iterate_relaxed p (tsp_init p) = Some st.
(** what the first stage returns for edge [(u, v)] *)
Definition value_is (p : tsp_params) (st : tsp_state) (u v : nat) (x : Qc) : Prop :=
  exists i, nth_error (tsp_edges (p_in p)) i = Some (u, v) /\ nth_error (r_extr (t_sol st)) i = Some (Fin x).
Lemma stage_values o n C ord p st a : 3 <= n -> cost_matrix_ok n C -> q_alpha o = Fin a ->
  (forall l, Permutation (ord l) l) -> first_stage o n C ord p st ->
  exists R K DR DC, schedule n (effective (q_filt o) a) (qat C) R K DR DC /\ NoDup (r_selected (t_sol st)) /\
    r_cost (t_sol st) = Fin (edges_cost C (r_selected (t_sol st))) /\
    (forall u v, u < n -> v < n -> u <> v -> value_is p st u v (R (q_iters o) u v + K (q_iters o) u v)%Qc) /\
    forall u v, In (u, v) (r_selected (t_sol st)) <-> u < n /\ v < n /\ u <> v /\
      ngt (Fin (R (q_iters o) u v + K (q_iters o) u v + qat C u v)%Qc) (q_thr o) = false.
Proof.
  intros Hn HC Ha Po (Hp & R).
  destruct (relaxed_selection o n C ord p st Hn HC (ex_intro _ a Ha) Po Hp R) as (Nsel & Csel & Isel).
  destruct (py_call_full o n C ord p HC Hp) as (DC & En & Co & L & _). rewrite En in Co.
  destruct (C51_first_stage o n C ord p st a Hn HC Ha Po Hp R) as (V & Dg & M & V0 & PH & PX).
  set (E := tsp_edges (p_in p)) in *.
  exists (rowm E M), (colm E M), (rawr E Dg), (rawc E Dg). split; [|split; [exact Nsel|split; [exact Csel|]]].
  - split; [auto|]. intros t i k Hi Hk N.
    split; [apply (rawr_ok n E C (q_filt o) a V Dg M Hn Co V0); auto; intros t'; apply (PH t')|].
    split; [apply (rawc_ok n E C (q_filt o) a V Dg M Hn Co V0); auto; intros t'; apply (PH t')|].
    apply (rowm_S n E C (q_filt o) a V Dg M Co); auto; intros t'; apply (PH t').
  - assert (Val : forall u v, u < n -> v < n -> u <> v ->
      nth_error (r_extr (t_sol st)) (pos_of E u v) = Some (Fin (rowm E M (q_iters o) u v + colm E M (q_iters o) u v)%Qc) /\
      nth_error (r_intr (t_sol st)) (pos_of E u v) = Some (Fin (rowm E M (q_iters o) u v + colm E M (q_iters o) u v + qat C u v)%Qc)).
    { intros u v Hu Hv N. destruct (Nat.eq_dec (q_iters o) 0) as [Z|Z].
      - destruct (C51_no_iterations o n C ord p st [] HC Hp (h_relaxed _ _ R) Z _ _ _ (edge n E Co u v Hu Hv N)) as (X1 & X2).
        rewrite X1, X2, Z. cbn [rowm colm]. split; do 2 f_equal; ring.
      - destruct (PX _ _ _ (edge n E Co u v Hu Hv N)) as (_ & _ & x & X1 & X2 & X3). rewrite X1, X2, X3 by lia.
        destruct (q_iters o) as [|m]; [lia|]. cbn [rowm colm]. rewrite Nat.sub_succ, Nat.sub_0_r. auto. }
    split.
    + intros u v Hu Hv N. exists (pos_of E u v). split; [apply (edge n); auto|]. apply Val; auto.
    + intros u v. rewrite Isel. split.
      * intros (i & y & G & Y & B). assert (Huv : u < n /\ v < n /\ u <> v) by (apply (proj2 Co); exact (nth_error_In _ _ G)).
        destruct Huv as (Hu & Hv & N). rewrite (pos_of_unique _ _ _ _ (proj1 Co) G), (proj2 (Val u v Hu Hv N)) in Y.
        injection Y as <-. auto.
      * intros (Hu & Hv & N & B). eexists _, _. split; [apply (edge n E Co u v); auto|]. split; [apply Val; auto|exact B].
Qed.
Lemma value_unique o n C ord p st u v x y : cost_matrix_ok n C -> first_stage o n C ord p st ->
  value_is p st u v x -> value_is p st u v y -> x = y.
Proof.
  intros HC (Hp & _) (i & G & X) (j & G' & Y). destruct (py_call_full o n C ord p HC Hp) as (_ & _ & Co & _).
  rewrite (pos_of_unique _ _ _ _ (proj1 Co) G) in X. rewrite (pos_of_unique _ _ _ _ (proj1 Co) G') in Y. congruence.
Qed.

(** Transposing the cost matrix reverses every edge of the selection and leaves the cost unchanged;
    the value of an edge becomes the value of the reversed edge. *)
Theorem C60_transpose : forall o n C C' ord ord' p p' st st' a,
  3 <= n -> cost_matrix_ok n C -> cost_matrix_ok n C' -> q_alpha o = Fin a ->
  (forall l, Permutation (ord l) l) -> (forall l, Permutation (ord' l) l) ->
  (forall u v, u < n -> v < n -> qat C' u v = qat C v u) ->
  first_stage o n C ord p st -> first_stage o n C' ord' p' st' ->
  (forall u v x, value_is p st u v x <-> value_is p' st' v u x) /\
  Permutation (r_selected (t_sol st')) (map (fun e => (snd e, fst e)) (r_selected (t_sol st))) /\
  r_cost (t_sol st') = r_cost (t_sol st).
Proof.
  intros o n C C' ord ord' p p' st st' a Hn HC HC' Ha Po Po' Ht F F'.
  destruct (stage_values o n C ord p st a Hn HC Ha Po F) as (R & K & DR & DK & S & N & Cs & Vs & Is).
  destruct (stage_values o n C' ord' p' st' a Hn HC' Ha Po' F') as (R' & K' & DR' & DK' & S' & N' & Cs' & Vs' & Is').
  pose proof (transposed n (qat C) (qat C') _ R K DR DK R' K' DR' DK' S S' Ht) as T.
  assert (Bd : forall u v x, value_is p st u v x -> u < n /\ v < n /\ u <> v).
  { intros u v x (i & G & _). destruct F as (Hp & _). destruct (py_call_full o n C ord p HC Hp) as (_ & En & Co & _). rewrite En in Co.
    apply (proj2 Co). exact (nth_error_In _ _ G). }
  assert (Bd' : forall u v x, value_is p' st' u v x -> u < n /\ v < n /\ u <> v).
  { intros u v x (i & G & _). destruct F' as (Hp & _). destruct (py_call_full o n C' ord' p' HC' Hp) as (_ & En & Co & _). rewrite En in Co.
    apply (proj2 Co). exact (nth_error_In _ _ G). }
  assert (Q : forall u v, u < n -> v < n -> u <> v -> (R' (q_iters o) v u + K' (q_iters o) v u = R (q_iters o) u v + K (q_iters o) u v)%Qc).
  { intros u v Hu Hv Nuv. destruct (T (q_iters o) v u Hv Hu (not_eq_sym Nuv)) as (-> & ->). ring. }
  assert (P : Permutation (r_selected (t_sol st')) (map (fun e => (snd e, fst e)) (r_selected (t_sol st)))).
  { apply NoDup_Permutation; [exact N'| |].
    - apply (NoDup_map_inv (fun e => (snd e, fst e))). rewrite map_map.
      rewrite (map_ext _ (fun e => e)) by (intros (x, y); reflexivity). rewrite map_id. exact N.
    - intros (v, u). rewrite Is', in_map_iff. split.
      + intros (Hv & Hu & Nvu & B). exists (u, v). split; [reflexivity|]. apply Is. repeat split; auto.
        rewrite <- Q, <- Ht by auto. exact B.
      + intros ((u', v') & E & I). cbn [fst snd] in E. injection E as -> ->. apply Is in I as (Hu & Hv & Nuv & B).
        repeat split; auto. rewrite Q, Ht by auto. exact B. }
  split; [|split; [exact P|]].
  - intros u v x. split; intros H.
    + destruct (Bd _ _ _ H) as (Hu & Hv & Nuv). rewrite (value_unique o n C ord p st u v x _ HC F H (Vs u v Hu Hv Nuv)).
      rewrite <- Q by auto. apply Vs'; auto.
    + destruct (Bd' _ _ _ H) as (Hv & Hu & Nvu). rewrite (value_unique o n C' ord' p' st' v u x _ HC' F' H (Vs' v u Hv Hu Nvu)).
      rewrite Q by auto. apply Vs; auto.
  - rewrite Cs, Cs', (edges_cost_perm C' _ _ P). f_equal. unfold edges_cost. rewrite map_map. f_equal. apply map_ext_in.
    intros (u, v) I. cbn [fst snd]. apply Is in I. apply Ht; tauto.
Qed.

(** For a symmetric cost matrix every selected edge is selected in both directions.  So the first
    stage never selects exactly the edges of a tour. *)
Theorem C60_symmetric : forall o n C ord p st a,
  3 <= n -> cost_matrix_ok n C -> q_alpha o = Fin a -> (forall l, Permutation (ord l) l) ->
  (forall u v, u < n -> v < n -> qat C u v = qat C v u) ->
  first_stage o n C ord p st ->
  (forall u v, In (u, v) (r_selected (t_sol st)) <-> In (v, u) (r_selected (t_sol st))) /\
  (forall h, Permutation h (seq 0 n) -> ~ Permutation (r_selected (t_sol st)) (steps (closed h))).
Proof.
  intros o n C ord p st a Hn HC Ha Po Hsym F.
  assert (A : forall u v, In (u, v) (r_selected (t_sol st)) <-> In (v, u) (r_selected (t_sol st))).
  { destruct (C60_transpose o n C C ord ord p p st st a Hn HC HC Ha Po Po Hsym F F) as (_ & P & _).
    assert (X : forall u v, In (u, v) (r_selected (t_sol st)) -> In (v, u) (r_selected (t_sol st))).
    { intros u v I. apply (Permutation_in _ P), in_map_iff in I as ((x & y) & Q & I). cbn in Q. injection Q as -> ->. exact I. }
    intros u v; split; apply X. }
  split; [exact A|]. intros h Ph P.
  assert (N : NoDup h) by (eapply Permutation_NoDup; [apply Permutation_sym, Ph|apply seq_NoDup]).
  pose proof (Permutation_length Ph) as L. rewrite seq_length in L.
  destruct h as [|x [|y [|z t]]]; cbn [length] in L; try lia.
  assert (I : In (x, y) (r_selected (t_sol st))).
  { apply (Permutation_in _ (Permutation_sym P)), in_steps. exists [], (z :: t ++ [x]). reflexivity. }
  apply A, (Permutation_in _ P) in I.
  assert (J : In (y, z) (steps (closed (x :: y :: z :: t)))).
  { apply in_steps. exists [x], (t ++ [x]). reflexivity. }
  (* [y] has only one successor *)
  assert (Nf : NoDup (map fst (steps (closed (x :: y :: z :: t))))).
  { cbn [closed]. rewrite steps_sources. exact N. }
  assert (Qz : x = z).
  { clear - Nf I J. induction (steps (closed (x :: y :: z :: t))) as [|(b, c) l IH]; [destruct I|].
    cbn [map fst] in Nf. inversion Nf as [|? ? N1 N2]; subst.
    destruct I as [I|I], J as [J|J].
    - congruence.
    - injection I as -> ->. exfalso. apply N1. apply in_map_iff. exists (y, z). auto.
    - injection J as -> ->. exfalso. apply N1. apply in_map_iff. exists (y, x). auto.
    - auto. }
  inversion N as [|? ? N1 _]; subst. apply N1. right; now left.
Qed.

(** Renaming the nodes by a permutation [f] and multiplying all costs and the threshold by [c > 0]
    renames the selection and multiplies all values and the cost by [c]. *)
Theorem C60_relabel_scale : forall o o' n C C' ord ord' p p' st st' a th c f,
  3 <= n -> cost_matrix_ok n C -> cost_matrix_ok n C' -> (0 < c)%Qc ->
  q_alpha o = Fin a -> q_alpha o' = Fin a -> q_filt o' = q_filt o -> q_iters o' = q_iters o ->
  q_thr o = Fin th -> q_thr o' = Fin (c * th)%Qc ->
  (forall l, Permutation (ord l) l) -> (forall l, Permutation (ord' l) l) ->
  Permutation (map f (seq 0 n)) (seq 0 n) ->
  (forall u v, u < n -> v < n -> qat C' u v = (c * qat C (f u) (f v))%Qc) ->
  first_stage o n C ord p st -> first_stage o' n C' ord' p' st' ->
  (forall u v x, u < n -> v < n -> value_is p st (f u) (f v) x <-> value_is p' st' u v (c * x)%Qc) /\
  Permutation (map (fun e => (f (fst e), f (snd e))) (r_selected (t_sol st'))) (r_selected (t_sol st)) /\
  exists q, r_cost (t_sol st) = Fin q /\ r_cost (t_sol st') = Fin (c * q)%Qc.
Proof.
  intros o o' n C C' ord ord' p p' st st' a th c f Hn HC HC' Hc Ha Ha' Hf Hit Ht Ht' Po Po' Pf Hq F F'.
  assert (Hlt : forall i, i < n -> f i < n).
  { intros i Hi. assert (I : In (f i) (seq 0 n)) by (apply (Permutation_in _ Pf), in_map, in_seq; lia). apply in_seq in I. lia. }
  assert (Honto : forall i, i < n -> exists j, j < n /\ f j = i).
  { intros i Hi. assert (I : In i (map f (seq 0 n))) by (apply (Permutation_in _ (Permutation_sym Pf)), in_seq; lia).
    apply in_map_iff in I as (j & Q & I). apply in_seq in I. exists j. split; [lia|exact Q]. }
  assert (Hinj : forall i j, i < n -> j < n -> f i = f j -> i = j).
  { intros i j Hi Hj Q. assert (Nf : NoDup (map f (seq 0 n))) by (eapply Permutation_NoDup; [apply Permutation_sym, Pf|apply seq_NoDup]).
    apply (proj1 (NoDup_nth (map f (seq 0 n)) (f 0)) Nf); rewrite ?map_length, ?seq_length; auto.
    rewrite !map_nth, !seq_nth by auto. exact Q. }
  destruct (stage_values o n C ord p st a Hn HC Ha Po F) as (R & K & DR & DK & S & N & Cs & Vs & Is).
  destruct (stage_values o' n C' ord' p' st' a Hn HC' Ha' Po' F') as (R' & K' & DR' & DK' & S' & N' & Cs' & Vs' & Is').
  rewrite Hf in S'. rewrite Hit in Vs', Is'.
  pose proof (relabelled n (qat C) (qat C') _ c f R K DR DK R' K' DR' DK' S S' Hc Hlt Hinj Honto Hq (q_iters o)) as T.
  set (t := q_iters o) in *.
  assert (Q : forall u v, u < n -> v < n -> u <> v -> (R' t u v + K' t u v = c * (R t (f u) (f v) + K t (f u) (f v)))%Qc).
  { intros u v Hu Hv Nuv. destruct (T u v Hu Hv Nuv) as (-> & ->). ring. }
  assert (Cinj : forall x y, (c * x = c * y)%Qc -> x = y).
  { intros x y E. destruct (Qc_dec x y) as [[H|H]|H]; [| |exact H]; exfalso; apply (Qcmult_lt_compat_r _ _ c Hc) in H; qlra. }
  assert (Sc : forall x, ngt (Fin (c * x)%Qc) (Fin (c * th)%Qc) = ngt (Fin x) (Fin th)).
  { intros x. change (qltb (c * th) (c * x) = qltb th x). destruct (qltb_spec th x) as [H|H], (qltb_spec (c * th) (c * x)) as [H'|H']; auto; exfalso.
    - apply (Qcmult_lt_compat_r _ _ c Hc) in H. qlra.
    - pose proof (mul_mono x th c H ltac:(qlra)). qlra. }
  assert (Bd : forall u v x, value_is p st u v x -> u < n /\ v < n /\ u <> v).
  { intros u v x (i & G & _). destruct F as (Hp & _). destruct (py_call_full o n C ord p HC Hp) as (_ & En & Co & _). rewrite En in Co.
    apply (proj2 Co). exact (nth_error_In _ _ G). }
  assert (Bd' : forall u v x, value_is p' st' u v x -> u < n /\ v < n /\ u <> v).
  { intros u v x (i & G & _). destruct F' as (Hp & _). destruct (py_call_full o' n C' ord' p' HC' Hp) as (_ & En & Co & _). rewrite En in Co.
    apply (proj2 Co). exact (nth_error_In _ _ G). }
  assert (Sel : forall u v, u < n -> v < n -> In (u, v) (r_selected (t_sol st')) <-> In (f u, f v) (r_selected (t_sol st))).
  { intros u v Hu Hv. rewrite Is, Is', Ht, Ht'. split.
    - intros (_ & _ & Nuv & B). repeat split; auto. rewrite Q, Hq in B by auto. rewrite <- Sc, <- B. f_equal. f_equal. ring.
    - intros (_ & _ & Nuv & B). assert (Nuv' : u <> v) by congruence. repeat split; auto. rewrite Q, Hq by auto.
      rewrite <- Sc in B. rewrite <- B. f_equal. f_equal. ring. }
  assert (P : Permutation (map (fun e => (f (fst e), f (snd e))) (r_selected (t_sol st'))) (r_selected (t_sol st))).
  { apply NoDup_Permutation; [|exact N|].
    - assert (B : forall e, In e (r_selected (t_sol st')) -> fst e < n /\ snd e < n) by (intros (u, v) I; apply Is' in I; cbn; tauto).
      clear - N' B Hinj. induction (r_selected (t_sol st')) as [|e l IH]; [constructor|].
      inversion N' as [|? ? N1 N2]; subst. cbn [map]. constructor; [|apply IH; auto; intros; apply B; now right].
      intros I. apply in_map_iff in I as (e' & E & I). apply N1. injection E as E1 E2.
      destruct (B e (or_introl eq_refl)), (B e' (or_intror I)). apply Hinj in E1, E2; auto.
      destruct e, e'; cbn in *. subst. exact I.
    - intros (x, y). rewrite in_map_iff. split.
      + intros ((u, v) & E & I). cbn [fst snd] in E. injection E as <- <-. pose proof I as I'. apply Is' in I' as (Hu & Hv & _). apply Sel; auto.
      + intros I. pose proof I as I'. apply Is in I' as (Hx & Hy & _). destruct (Honto x Hx) as (u & Hu & <-). destruct (Honto y Hy) as (v & Hv & <-).
        exists (u, v). split; [reflexivity|]. apply Sel; auto. }
  split; [|split; [exact P|]].
  - intros u v x Hu Hv. split; intros H.
    + destruct (Bd _ _ _ H) as (_ & _ & Nf). assert (Nuv : u <> v) by congruence.
      rewrite (value_unique o n C ord p st _ _ x _ HC F H (Vs _ _ (Hlt u Hu) (Hlt v Hv) Nf)), <- Q by auto. apply Vs'; auto.
    + destruct (Bd' _ _ _ H) as (_ & _ & Nuv).
      pose proof (value_unique o' n C' ord' p' st' u v _ _ HC' F' H (Vs' u v Hu Hv Nuv)) as E. rewrite Q in E by auto.
      apply Cinj in E. rewrite E. apply Vs; auto.
  - exists (edges_cost C (r_selected (t_sol st))). split; [exact Cs|]. rewrite Cs', <- (edges_cost_perm C _ _ P). f_equal.
    unfold edges_cost. rewrite map_map. cbn [fst snd].
    assert (B : forall e, In e (r_selected (t_sol st')) -> fst e < n /\ snd e < n) by (intros (u, v) I; apply Is' in I; cbn; tauto).
    clear - B Hq. induction (r_selected (t_sol st')) as [|e l IH]; [cbn; ring|]. cbn [map]. rewrite !qsum_cons, IH by (intros; apply B; now right).
    destruct (B e (or_introl eq_refl)). rewrite Hq by auto. ring.
Qed.

(** ** Examples *)
Definition s60 := mat [[0; 1; 2; 5]; [1; 0; 3; 4]; [2; 3; 0; 1]; [5; 4; 1; 0]]%Z.
Lemma s60_ok : cost_matrix_ok 4 s60.
Proof. check_matrix. Qed.
Definition stage_of (o : tsp_options) (n : nat) (C : list (list Qc)) : option tsp_state :=
  p <- py_call o n (inj C) (fun l => l) ;; iterate_relaxed p (tsp_init p).
(** a symmetric matrix whose cheapest tours are a pair of reversed tours *)
Example C60_symmetric_example : (forall u v, u < 4 -> v < 4 -> qat s60 u v = qat s60 v u) /\
  option_map (fun st => r_selected (t_sol st)) (stage_of (opt 5 true 20 3) 4 s60) = Some [(0, 1); (1, 0); (2, 3); (3, 2)].
Proof.
  split; [|vm_compute; reflexivity]. intros u v Hu Hv.
  do 4 (destruct u as [|u]; [do 4 (destruct v as [|v]; [reflexivity|]); lia|]). lia.
Qed.
(** transposed matrix, one iteration without filtering *)
Definition cm4t := mat [[0; 2; 4; 7]; [1; 0; 8; 6]; [8; 2; 0; 2]; [6; 7; 3; 0]]%Z.
Lemma cm4t_ok : cost_matrix_ok 4 cm4t.
Proof. check_matrix. Qed.
Example C60_transpose_example : (forall u v, u < 4 -> v < 4 -> qat cm4t u v = qat cm4 v u) /\
  option_map (fun st => r_selected (t_sol st)) (stage_of (opt 1 false 20 3) 4 cm4) = Some [(0, 1); (1, 0); (1, 2); (2, 0); (2, 3); (3, 2)] /\
  option_map (fun st => r_selected (t_sol st)) (stage_of (opt 1 false 20 3) 4 cm4t) = Some [(0, 1); (0, 2); (1, 0); (2, 1); (2, 3); (3, 2)].
Proof.
  split; [|split; vm_compute; reflexivity]. intros u v Hu Hv.
  do 4 (destruct u as [|u]; [do 4 (destruct v as [|v]; [reflexivity|]); lia|]). lia.
Qed.
(** nodes 0 and 1 renamed into each other, costs and threshold doubled *)
Definition swap01 (u : nat) : nat := match u with 0 => 1 | 1 => 0 | _ => u end.
Definition cm4r := mat [[0; 4; 4; 14]; [2; 0; 16; 12]; [16; 8; 0; 6]; [12; 14; 4; 0]]%Z.
Definition opt60 : tsp_options :=
  {| q_iters := 1; q_aug := true; q_reset := true; q_filt := false; q_alpha := Fin (Q2Qc (1 # 2));
     q_thr := match thr4 with Fin q => Fin (Q2Qc 2 * q)%Qc | x => x end; q_max_count := 20; q_max_augm := 3 |}.
Example C60_relabel_example : cost_matrix_ok 4 cm4r /\ Permutation (map swap01 (seq 0 4)) (seq 0 4) /\
  (forall u v, u < 4 -> v < 4 -> qat cm4r u v = (Q2Qc 2 * qat cm4 (swap01 u) (swap01 v))%Qc) /\
  option_map (fun st => r_selected (t_sol st)) (stage_of opt60 4 cm4r) = Some [(0, 1); (0, 2); (1, 0); (2, 1); (2, 3); (3, 2)].
Proof.
  split; [check_matrix|]. split; [cbn; constructor|]. split; [|vm_compute; reflexivity]. intros u v Hu Hv.
  do 4 (destruct u as [|u]; [do 4 (destruct v as [|v]; [apply Qc_is_canon; reflexivity|]); lia|]). lia.
Qed.
Print Assumptions C60_transpose.
Print Assumptions C60_symmetric.
Print Assumptions C60_relabel_scale.
