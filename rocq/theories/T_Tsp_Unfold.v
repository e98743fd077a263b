(** * Property C82: what the first stage of a TSP call computes. *)
From Coq Require Import Permutation.
From Verif Require Import Num NumFacts Arr ArrFacts Spec SpecRun SpecGraph SpecCover SpecForest SpecView SpecUnfold MinSum MinSumFacts.
From Verif Require Import M_InOut M_Tsp_Run M_Tsp_Py P_Tsp_Sched P_Tsp_Order P_Assign P_Tsp_Assign P_Ksat P_PyRef_Ksat P_Ksat_Py.
From Verif Require Import P_Forest P_Forest_Limit P_Ksat_Tree P_Ksat_View P_Unfold P_Tsp_Constraints P_InOut P_Tsp_Run P_Tsp_Fin P_Tsp_Py T_Tsp_Run T_Tsp_Call T_Tsp_Sched T_Tsp_Order T_Tsp_Assign T_Tsp_Sym.
Local Open Scope nat_scope.

(** ** The schedule of the first stage as one over the network of cycle covers *)
Section Cover.
Variables (n : nat) (w : nat -> nat -> Qc) (R C DR DC : nat -> nat -> nat -> Qc).
Hypothesis Hn : 3 <= n.
Hypothesis HS : schedule n 0%Qc w R C DR DC.
Let N := cover_network n w.

Lemma code_row u v : v < n -> (u * n + v) / n = u.
Proof. intros H. rewrite Nat.add_comm, Nat.div_add by lia. rewrite Nat.div_small by lia. reflexivity. Qed.
Lemma code_col u v : v < n -> (u * n + v) mod n = v.
Proof. intros H. rewrite Nat.add_comm, Nat.mod_add by lia. apply Nat.mod_small. lia. Qed.
Lemma row_iff c e : c < n -> In e (cover_scope n c) <-> exists v, v < n /\ v <> c /\ e = c * n + v.
Proof.
  intros Hc. unfold cover_scope. rewrite (proj2 (Nat.ltb_lt _ _) Hc), in_map_iff. split.
  - intros (v & <- & I). apply others_iff in I as (I & Ne). apply in_seq in I. exists v. repeat split; auto. lia.
  - intros (v & Hv & Ne & ->). exists v. split; [reflexivity|]. apply others_iff. split; [apply in_seq; lia|exact Ne].
Qed.
Lemma col_iff k e : In e (cover_scope n (n + k)) <-> exists u, u < n /\ u <> k /\ e = u * n + k.
Proof.
  unfold cover_scope. replace (n + k <? n) with false by (symmetry; apply Nat.ltb_ge; lia).
  replace (n + k - n) with k by lia. rewrite in_map_iff. split.
  - intros (v & <- & I). apply others_iff in I as (I & Ne). apply in_seq in I. exists v. repeat split; auto. lia.
  - intros (v & Hv & Ne & ->). exists v. split; [reflexivity|]. apply others_iff. split; [apply in_seq; lia|exact Ne].
Qed.
Lemma code_inj u v u' v' : v < n -> v' < n -> u * n + v = u' * n + v' -> u = u' /\ v = v'.
Proof. intros Hv Hv' E. pose proof (f_equal (fun e => e / n) E) as A. pose proof (f_equal (fun e => e mod n) E) as B. cbn beta in A, B.
  rewrite !code_row in A by auto. rewrite !code_col in B by auto. auto. Qed.

Lemma cover_sound : forall c, c < 2 * n -> NoDup (cover_scope n c) /\ (forall e, In e (cover_scope n c) -> e < n * n).
Proof.
  intros c Hc. split.
  - unfold cover_scope. destruct (c <? n); (apply FinFun.Injective_map_NoDup; [intros a b E; nia|]); apply NoDup_filter, seq_NoDup.
  - intros e I. destruct (Nat.lt_ge_cases c n) as [L|G].
    + apply row_iff in I as (v & Hv & _ & ->); [nia|exact L].
    + replace c with (n + (c - n)) in I by lia. apply col_iff in I as (u & Hu & _ & ->). nia.
Qed.

(** exactly one of the edges: what the code computes is the min-sum message *)
Lemma one_message c e (nu : nat -> Qc) d :
  NoDup (cover_scope n c) -> (forall e, In e (cover_scope n c) -> e < n * n) -> In e (cover_scope n c) ->
  (exists e', In e' (cover_scope n c) /\ e' <> e /\ d = (- nu e')%Qc) ->
  (forall e', In e' (cover_scope n c) -> e' <> e -> (- d <= nu e')%Qc) ->
  lmsg (seq 0 (n * n)) (cover_scope n) (fun c => one_chosen (cover_scope n c)) c nu e d.
Proof.
  intros Nd B I (e' & I' & Ne & Ed) Le.
  assert (Fs : forall a, fsum (seq 0 (n * n)) (inb (cover_scope n) c e) nu a = qsum (map (fun u => if a u then nu u else 0%Qc) (others e (cover_scope n c)))).
  { intros a. unfold fsum. rewrite (qsum_outside _ (n * n) (others e (cover_scope n c))).
    - f_equal. apply map_ext_in. intros u Hu. apply others_iff in Hu as (Iu & Nu). unfold inb.
      rewrite (proj2 (mem_In _ _) Iu). apply Nat.eqb_neq in Nu. rewrite Nu. reflexivity.
    - apply NoDup_filter, Nd.
    - intros u Hu. apply others_iff in Hu as (Iu & _). auto.
    - intros u _ Hu. unfold inb. destruct (mem u (cover_scope n c)) eqn:M; [|reflexivity]. destruct (Nat.eqb_spec u e); [reflexivity|].
      exfalso. apply Hu, others_iff. split; [now apply mem_In|auto]. }
  assert (Z : forall a, (forall u, In u (others e (cover_scope n c)) -> a u = false) -> fsum (seq 0 (n * n)) (inb (cover_scope n) c e) nu a = 0%Qc).
  { intros a Ha. rewrite Fs. clear Fs. induction (others e (cover_scope n c)) as [|u l IH]; [reflexivity|]. cbn [map]. unfold qsum in *. cbn [fold_right].
    rewrite (Ha u (or_introl eq_refl)), IH by (intros; apply Ha; now right). ring. }
  assert (One : forall a x, In x (others e (cover_scope n c)) -> a x = true -> (forall u, In u (others e (cover_scope n c)) -> a u = true -> u = x) ->
    fsum (seq 0 (n * n)) (inb (cover_scope n) c e) nu a = nu x).
  { intros a x Ix Ax U. rewrite Fs. assert (Nl : NoDup (others e (cover_scope n c))) by (apply NoDup_filter, Nd).
    clear Fs Z. revert Ix U Nl. induction (others e (cover_scope n c)) as [|u l IH]; intros Ix U Nl; [destruct Ix|]. inversion_clear Nl as [|? ? N1 N2].
    cbn [map]. unfold qsum in *. cbn [fold_right]. destruct (Nat.eq_dec u x) as [->|Nx].
    - rewrite Ax. assert (E0 : fold_right Qcplus 0%Qc (map (fun u => if a u then nu u else 0%Qc) l) = 0%Qc).
      { clear IH Ix N2. induction l as [|y l IH]; [reflexivity|]. cbn [map fold_right]. destruct (a y) eqn:Ay.
        - exfalso. apply N1. left. apply U; [right; left; reflexivity|exact Ay].
        - rewrite IH; [ring|intros C0; apply N1; now right|]. intros v Hv Av. apply U; [|exact Av]. destruct Hv as [->|Hv]; [left; reflexivity|right; right; exact Hv]. }
      rewrite E0. ring.
    - destruct Ix as [->|Ix]; [congruence|]. destruct (a u) eqn:Au; [exfalso; apply Nx, U; [left; reflexivity|exact Au]|].
      rewrite IH; [ring|exact Ix| |exact N2]. intros v Hv. apply U. now right. }
  exists 0%Qc, (nu e'). split; [|split].
  - split.
    + exists (fun u => u =? e). split; [|split; [apply Nat.eqb_refl|]].
      * exists e. split; [exact I|]. split; [apply Nat.eqb_refl|]. intros u _ Hu. now apply Nat.eqb_eq.
      * symmetry. apply Z. intros u Hu. apply others_iff in Hu as (_ & Hu). now apply Nat.eqb_neq.
    + intros a (x & Ix & Ax & U) Ae. rewrite (Z a); [apply Qcle_refl|]. intros u Hu. apply others_iff in Hu as (Iu & Hu).
      destruct (a u) eqn:Au; [|reflexivity]. exfalso. apply Hu. rewrite (U u Iu Au), (U e I Ae). reflexivity.
  - split.
    + exists (fun u => u =? e'). split; [|split; [apply Nat.eqb_neq; congruence|]].
      * exists e'. split; [exact I'|]. split; [apply Nat.eqb_refl|]. intros u _ Hu. now apply Nat.eqb_eq.
      * symmetry. apply (One _ e'); [apply others_iff; auto|apply Nat.eqb_refl|]. intros u _ Hu. now apply Nat.eqb_eq.
    + intros a (x & Ix & Ax & U) Ae. assert (Nx : x <> e) by congruence. rewrite (One a x); [|apply others_iff; auto|exact Ax|].
      * pose proof (Le x Ix Nx) as L. rewrite Ed in L. qlra.
      * intros u Hu. apply others_iff in Hu as (Iu & _). apply U, Iu.
  - rewrite Ed. ring.
Qed.

Definition in_row (c e : nat) : bool := (c <? n) && (e / n =? c) && negb (e mod n =? c) && (e <? n * n).
Definition in_col (c e : nat) : bool := negb (c <? n) && (e mod n =? c - n) && negb (e / n =? c - n) && (e <? n * n).
Definition nV t c e := if c <? n then (w (e / n) (e mod n) + C t (e / n) (e mod n))%Qc else (w (e / n) (e mod n) + R t (e / n) (e mod n))%Qc.
Definition nR t c e := if c <? n then DR t (e / n) (e mod n) else DC t (e / n) (e mod n).
Definition nD t c e := if in_row c e then R (t + 1) (e / n) (e mod n) else if in_col c e then C (t + 1) (e / n) (e mod n) else 0%Qc.

Lemma in_row_spec u v : u < n -> v < n -> u <> v -> in_row u (u * n + v) = true.
Proof.
  intros Hu Hv Ne. unfold in_row. rewrite code_row, code_col by auto. rewrite (proj2 (Nat.ltb_lt _ _) Hu), Nat.eqb_refl.
  rewrite (proj2 (Nat.eqb_neq v u)) by auto. cbn. apply Nat.ltb_lt. nia.
Qed.
Lemma in_col_spec u v : u < n -> v < n -> u <> v -> in_row (n + v) (u * n + v) = false /\ in_col (n + v) (u * n + v) = true.
Proof.
  intros Hu Hv Ne. unfold in_row, in_col. replace (n + v <? n) with false by (symmetry; apply Nat.ltb_ge; lia). split; [reflexivity|].
  rewrite code_row, code_col by auto. replace (n + v - n) with v by lia. rewrite Nat.eqb_refl, (proj2 (Nat.eqb_neq u v)) by auto. cbn. apply Nat.ltb_lt. nia.
Qed.
Lemma off_scope t c e : c < 2 * n -> ~ In e (cover_scope n c) -> nD t c e = 0%Qc.
Proof.
  intros Hc I. unfold nD. destruct (in_row c e) eqn:A.
  - exfalso. apply I. unfold in_row in A. rewrite !andb_true_iff, negb_true_iff, Nat.ltb_lt, Nat.eqb_eq, Nat.eqb_neq, Nat.ltb_lt in A.
    destruct A as (((A1 & A2) & A3) & A4). apply row_iff; [exact A1|]. exists (e mod n). split; [apply Nat.mod_upper_bound; lia|]. split; [exact A3|].
    rewrite <- A2. rewrite (Nat.div_mod e n) at 1 by lia. lia.
  - destruct (in_col c e) eqn:B; [|reflexivity]. exfalso. apply I. unfold in_col in B.
    rewrite !andb_true_iff, !negb_true_iff, Nat.ltb_ge, Nat.eqb_eq, Nat.eqb_neq, Nat.ltb_lt in B. destruct B as (((B1 & B2) & B3) & B4).
    replace c with (n + (c - n)) by lia. apply col_iff. exists (e / n). split; [apply Nat.div_lt_upper_bound; lia|]. split; [exact B3|].
    rewrite <- B2. rewrite (Nat.div_mod e n) at 1 by lia. lia.
Qed.

(** the two constraints of an edge *)
Lemma two_sum (F : nat -> Qc) u v : u < n -> v < n ->
  (forall c, c < 2 * n -> c <> u -> c <> n + v -> F c = 0%Qc) ->
  qsum (map F (seq 0 (2 * n))) = (F u + F (n + v)%nat)%Qc /\
  qsum (map F (others u (seq 0 (2 * n)))) = F (n + v)%nat /\ qsum (map F (others (n + v) (seq 0 (2 * n)))) = F u.
Proof.
  intros Hu Hv Z. assert (Nd : NoDup (seq 0 (2 * n))) by apply seq_NoDup.
  assert (Iu : In u (seq 0 (2 * n))) by (apply in_seq; lia). assert (Iv : In (n + v) (seq 0 (2 * n))) by (apply in_seq; lia).
  assert (A : qsum (map F (seq 0 (2 * n))) = (F u + F (n + v)%nat)%Qc).
  { rewrite (qsum_outside F (2 * n) [u; n + v]).
    - unfold qsum. cbn [map fold_right]. ring.
    - constructor; [intros [X|[]]; lia|]. constructor; [intros []|constructor].
    - intros c [<-|[<-|[]]]; lia.
    - intros c Hc X. apply Z; auto; intros ->; apply X; cbn; auto. }
  split; [exact A|]. pose proof (qsum_others F u _ Nd Iu) as B1. pose proof (qsum_others F (n + v) _ Nd Iv) as B2.
  rewrite A in B1, B2. split; qlra.
Qed.

Lemma edge_zero t u v c : u < n -> v < n -> u <> v -> c < 2 * n -> c <> u -> c <> n + v -> nD t c (u * n + v) = 0%Qc.
Proof.
  intros Hu Hv Ne Hc N1 N2. apply off_scope; [exact Hc|]. intros I. destruct (Nat.lt_ge_cases c n) as [L|G].
  - apply row_iff in I as (v' & Hv' & _ & E); [|exact L]. apply code_inj in E; auto. lia.
  - replace c with (n + (c - n)) in I by lia. apply col_iff in I as (u' & Hu' & _ & E). apply code_inj in E; lia.
Qed.

Lemma cover_sched : fsched (seq 0 (n * n)) (n_scope N) (n_allows N) (n_all N) 0%Qc nV nR nD (n_price N).
Proof.
  destruct HS as (S0 & SS). unfold N, cover_network. cbn [n_scope n_allows n_all n_price].
  assert (Row : forall c e, In c (seq 0 (2 * n)) -> In e (cover_scope n c) -> c < n ->
    exists v, v < n /\ c <> v /\ e = c * n + v /\ e / n = c /\ e mod n = v /\ in_row c e = true).
  { intros c e _ I L. apply row_iff in I as (v & Hv & Ne & ->); [|exact L]. exists v. rewrite code_row, code_col by auto.
    repeat split; auto. apply in_row_spec; auto. }
  assert (Col : forall c e, In c (seq 0 (2 * n)) -> In e (cover_scope n c) -> ~ c < n ->
    exists u v, u < n /\ v < n /\ u <> v /\ c = n + v /\ e = u * n + v /\ e / n = u /\ e mod n = v /\ in_row c e = false /\ in_col c e = true).
  { intros c e Ic I G. apply in_seq in Ic. replace c with (n + (c - n)) in I by lia. apply col_iff in I as (u & Hu & Ne & ->).
    exists u, (c - n). assert (Hv : c - n < n) by lia. rewrite code_row, code_col by auto. destruct (in_col_spec u (c - n) Hu Hv Ne) as (A & B).
    replace (n + (c - n)) with c in A, B by lia. repeat split; auto; lia. }
  split.
  - intros t c e Ic I. destruct (cover_sound c) as (Nd & B); [apply in_seq in Ic; lia|]. apply one_message; auto; unfold nV, nR.
    + destruct (Nat.ltb_spec c n) as [L|G].
      * destruct (Row c e Ic I L) as (v & Hv & Ne & -> & -> & -> & _). destruct (SS t c v L Hv Ne) as (((j & J1 & J2 & J3 & J4) & _) & _).
        exists (c * n + j). split; [apply row_iff; eauto|]. split; [lia|]. rewrite code_row, code_col by auto. exact J4.
      * destruct (Col c e Ic I ltac:(lia)) as (u & v & Hu & Hv & Ne & -> & -> & -> & -> & _).
        destruct (SS t u v Hu Hv Ne) as (_ & ((l & J1 & J2 & J3 & J4) & _) & _).
        exists (l * n + v). split; [apply col_iff; eauto|]. split; [intros X; apply code_inj in X; lia|]. rewrite code_row, code_col by auto. exact J4.
    + intros e' I' Ne'. destruct (Nat.ltb_spec c n) as [L|G].
      * destruct (Row c e Ic I L) as (v & Hv & Ne & Ee & -> & -> & _). destruct (Row c e' Ic I' L) as (j & Hj & Nj & Ej & -> & -> & _).
        destruct (SS t c v L Hv Ne) as ((_ & J) & _). apply J; auto. intros ->. congruence.
      * destruct (Col c e Ic I ltac:(lia)) as (u & v & Hu & Hv & Ne & Ec & Ee & -> & -> & _).
        destruct (Col c e' Ic I' ltac:(lia)) as (l & v' & Hl & Hv' & Nl & Ec' & Ee' & -> & -> & _). assert (v' = v) by lia. subst v'.
        destruct (SS t u v Hu Hv Ne) as (_ & (_ & J) & _). apply J; auto. intros ->. congruence.
  - intros t c e Ic I. apply off_scope; [apply in_seq in Ic; lia|exact I].
  - intros c e Ic I. unfold nD, nR. destruct (Nat.ltb_spec c n) as [L|G].
    + destruct (Row c e Ic I L) as (v & Hv & Ne & Ee & -> & -> & ->). destruct (SS 0 c v L Hv Ne) as (_ & _ & E & _).
      cbn [Nat.add]. rewrite E. ring.
    + destruct (Col c e Ic I ltac:(lia)) as (u & v & Hu & Hv & Ne & Ec & Ee & -> & -> & -> & ->). destruct (SS 0 u v Hu Hv Ne) as (_ & _ & _ & E).
      cbn [Nat.add]. rewrite E. ring.
  - intros t c e Ic I. unfold nD, nR. destruct (Nat.ltb_spec c n) as [L|G].
    + destruct (Row c e Ic I L) as (v & Hv & Ne & Ee & -> & -> & ->). destruct (SS (t + 1) c v L Hv Ne) as (_ & _ & E & _).
      rewrite (Nat.add_1_r (t + 1)), E. ring.
    + destruct (Col c e Ic I ltac:(lia)) as (u & v & Hu & Hv & Ne & Ec & Ee & -> & -> & -> & ->). destruct (SS (t + 1) u v Hu Hv Ne) as (_ & _ & _ & E).
      rewrite (Nat.add_1_r (t + 1)), E. ring.
  - intros t c e Ic I. destruct (Nat.lt_ge_cases c n) as [L|G].
    + destruct (Row c e Ic I L) as (v & Hv & Ne & Ee & E1 & E2 & _). subst e.
      destruct (two_sum (fun c' => nD t c' (c * n + v)) c v L Hv) as (_ & -> & _); [intros; apply edge_zero; auto|].
      destruct (in_col_spec c v L Hv Ne) as (A & B). unfold nV, nD. rewrite A, B, (proj2 (Nat.ltb_lt _ _) L), E1, E2. reflexivity.
    + destruct (Col c e Ic I ltac:(lia)) as (u & v & Hu & Hv & Ne & -> & -> & E1 & E2 & _).
      destruct (two_sum (fun c' => nD t c' (u * n + v)) u v Hu Hv) as (_ & _ & ->); [intros; apply edge_zero; auto|].
      unfold nV, nD. rewrite (in_row_spec u v Hu Hv Ne), E1, E2. replace (n + v <? n) with false by (symmetry; apply Nat.ltb_ge; lia). reflexivity.
Qed.

Lemma cover_values T u v : u < n -> v < n -> u <> v ->
  exists q1 q0, cheapest N T (u * n + v) true q1 /\ cheapest N T (u * n + v) false q0 /\ (R T u v + C T u v = q1 - q0)%Qc.
Proof.
  intros Hu Hv Ne. destruct T as [|T].
  - exists 0%Qc, 0%Qc. destruct (unfolding_zero N (u * n + v)) as (Z1 & Z0). split; [exact Z1|]. split; [exact Z0|].
    destruct HS as (S0 & _). destruct (S0 u v Hu Hv Ne) as (-> & ->). ring.
  - destruct (unfolding_value (n * n) N) with (V := nV) (Rm := nR) (D := nD) (n := T) (v := u * n + v) as (q1 & q0 & C1 & C0 & E).
    + intros c Ic. cbn in Ic. apply in_seq in Ic. destruct (cover_sound c ltac:(lia)) as (Nd & B). split; [exact Nd|]. split; [exact B|].
      cbn. intros x y Exy (e & Ie & Xe & U). exists e. split; [exact Ie|]. split; [rewrite <- Exy; auto|]. intros e' Ie' Ye. apply U; [exact Ie'|]. rewrite Exy; auto.
    + apply cover_sched.
    + intros c e Ic I. cbn in Ic, I |- *. destruct HS as (S0 & _). unfold nV. apply in_seq in Ic. destruct (Nat.ltb_spec c n) as [L|G].
      * apply row_iff in I as (v' & Hv' & Ne' & ->); [|exact L]. rewrite code_row, code_col by auto. destruct (S0 c v') as (_ & ->); auto. ring.
      * replace c with (n + (c - n)) in I by lia. apply col_iff in I as (u' & Hu' & Ne' & ->). rewrite code_row, code_col by lia.
        destruct (S0 u' (c - n)) as (-> & _); auto; [lia|ring].
    + exists q1, q0. split; [exact C1|]. split; [exact C0|]. rewrite <- E. cbn [n_all N cover_network].
      unfold N, cover_network. cbn [n_all]. destruct (two_sum (fun c => nD T c (u * n + v)) u v Hu Hv) as (-> & _); [intros; apply edge_zero; auto|].
      destruct (in_col_spec u v Hu Hv Ne) as (A & B). unfold nD. rewrite A, B, (in_row_spec u v Hu Hv Ne), code_row, code_col, Nat.add_1_r by auto. reflexivity.
Qed.
End Cover.

(** C82.  For every complete graph, every edge and every number of iterations of the first stage
    without filtering, the value of the edge is exact for the unfolding of the cycle-cover model
    (exactly one edge out of every node, exactly one into it): the cost of its cheapest labelling
    with the edge chosen minus the cost of the cheapest without it.  Both exist. *)
Theorem C82_unfolding :
  forall (o : tsp_options) (n : nat) (C : list (list Qc)) (ord : list nat -> list nat) (p : tsp_params) (st : tsp_state) (a : Qc),
    3 <= n -> cost_matrix_ok n C -> q_alpha o = Fin a -> q_filt o = false \/ a = 0%Qc ->
    (forall l, Permutation (ord l) l) -> first_stage o n C ord p st ->
    forall u v, u < n -> v < n -> u <> v ->
      exists q1 q0, cheapest (cover_network n (qat C)) (q_iters o) (u * n + v) true q1 /\
        cheapest (cover_network n (qat C)) (q_iters o) (u * n + v) false q0 /\
        value_is p st u v (q1 - q0)%Qc /\
        (forall theta, q_thr o = Fin theta ->
          (In (u, v) (r_selected (t_sol st)) <-> (q1 + qat C u v <= q0 + theta)%Qc)).
Proof.
  intros o n C ord p st a Hn HC Ha Hf Po F u v Hu Hv Ne.
  destruct (stage_values o n C ord p st a Hn HC Ha Po F) as (R & K & DR & DK & Sc & _ & _ & Vs & Is).
  assert (Ef : effective (q_filt o) a = 0%Qc) by (unfold effective; destruct Hf as [->| ->]; [|destruct (q_filt o)]; reflexivity). rewrite Ef in Sc.
  destruct (cover_values n (qat C) R K DR DK Hn Sc (q_iters o) u v Hu Hv Ne) as (q1 & q0 & C1 & C0 & E).
  exists q1, q0. split; [exact C1|]. split; [exact C0|]. split; [rewrite <- E; apply Vs; auto|].
  intros theta Ht. rewrite Is, E, Ht. unfold ngt. cbn [nlt].
  destruct (qltb theta (q1 - q0 + qat C u v)%Qc) eqn:T.
  - apply qltb_true in T. split; [intros (_ & _ & _ & X); discriminate|]. intros X. exfalso. qlra.
  - apply qltb_false in T. split; [intros _; qlra|auto].
Qed.

(** ** Example *)

(** The four cities of C60_transpose_example, edge (0, 1) (variable 1) after one iteration: if it is
    chosen nothing else is needed around it; if not, the cheapest other edges out of 0 and into 1
    are (0, 3) and (3, 1), which cost 6 each. *)
Example C82_example :
  cost_matrix_ok 4 cm4 /\
  cheapest (cover_network 4 (qat cm4)) 1 1 true (zq 0) /\ cheapest (cover_network 4 (qat cm4)) 1 1 false (zq 12) /\
  option_map (fun st => map view (firstn 1 (r_extr (t_sol st)))) (stage_of (opt 1 false 20 3) 4 cm4) = Some [VFin (-12)] /\
  option_map (fun st => map view (firstn 1 (r_extr (t_sol st)))) (stage_of (opt 4 false 20 3) 4 cm4) = Some [VFin (-9)].
Proof.
  split; [apply cm4_ok|]. split; [|split; [|split; vm_compute; reflexivity]].
  - split.
    + exists (fun p => match p with [] => true | _ => false end). split; [reflexivity|]. split; [|vm_compute; reflexivity].
      intros c Hc. vm_compute in Hc. destruct Hc as [<-|[<-|[]]]; (split; [|intros w _; exact I]); exists 1; cbn;
        (split; [auto|]; split; [reflexivity|]); intros e' [<-|[<-|[<-|[]]]] X; cbn in X; congruence.
    + intros a Ha H. cbn -[zq qat]. unfold after. destruct (a [(0, 2)]), (a [(0, 3)]), (a [(5, 9)]), (a [(5, 13)]); vm_compute; discriminate.
  - split.
    + exists (fun p => match p with [(0, 3)] => true | [(5, 13)] => true | _ => false end). split; [reflexivity|]. split; [|vm_compute; reflexivity].
      intros c Hc. vm_compute in Hc. destruct Hc as [<-|[<-|[]]]; (split; [|intros w _; exact I]); [exists 3|exists 13]; cbn;
        (split; [auto|]; split; [reflexivity|]); intros e' [<-|[<-|[<-|[]]]] X; cbn in X; congruence.
    + intros a Ha H. destruct (H 0) as ((e & Ie & Xe & _) & _); [vm_compute; auto|]. destruct (H 5) as ((e' & Ie' & Xe' & _) & _); [vm_compute; auto|].
      cbn -[zq qat]. unfold after. vm_compute in Ie, Ie'.
      destruct (a [(0, 2)]) eqn:A1, (a [(0, 3)]) eqn:A2, (a [(5, 9)]) eqn:A3, (a [(5, 13)]) eqn:A4; try (vm_compute; discriminate).
      all: exfalso; destruct Ie as [<-|[<-|[<-|[]]]], Ie' as [<-|[<-|[<-|[]]]]; cbn in Xe, Xe'; congruence.
Qed.

Print Assumptions C82_unfolding.
