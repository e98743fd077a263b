(** * Property C59: the first stage of a TSP call finds the cheapest cycle cover. *)
From Coq Require Import Permutation.
From Verif Require Import Num NumFacts Arr ArrFacts Spec SpecRun SpecGraph SpecCover MinSum MinSumFacts.
From Verif Require Import P_Tsp_Constraints M_InOut P_InOut M_Tsp_Loops P_Tsp_Loops T_Tsp_Loops M_Tsp_Run P_Tsp_Run P_Tsp_Fin.
From Verif Require Import M_Tsp_Py P_Tsp_Py T_Tsp_Run T_Tsp_Call T_Tsp_Sched P_Tsp_Order T_Tsp_Order.
From Verif Require Import P_Ksat P_PyRef_Ksat P_Assign P_Tsp_Assign.
Local Open Scope nat_scope.

(** If one choice of successors is cheaper than every other by at least [eps], the filter factor is
    in [0, 1), the costs are within [-W, W] and the threshold within [-Th, Th], then for a number of
    iterations above an explicit bound the edges selected by the first stage are exactly the edges
    of the cheapest cover, and the reported cost is its cost. *)
Theorem C59_cheapest_cover : forall o n C ord p st a th W Th eps s,
  3 <= n -> cost_matrix_ok n C -> q_alpha o = Fin a -> (0 <= a)%Qc -> (a < 1)%Qc -> q_thr o = Fin th ->
  (forall l, Permutation (ord l) l) ->
  (forall i k, i < n -> k < n -> i <> k -> (- W <= qat C i k /\ qat C i k <= W)%Qc) ->
  (- Th <= th /\ th <= Th)%Qc -> (0 < eps)%Qc -> cheapest_by n C s eps ->
  (qn n * ((qn 4 * qn n) * W + (eps + eps) + Th) < qn (q_iters o) * ((1 - a) * eps))%Qc ->
  py_call o n (inj C) ord = Some p -> iterate_relaxed p (tsp_init p) = Some st ->
  Permutation (r_selected (t_sol st)) (cover_edges s) /\ r_cost (t_sol st) = Fin (cover_cost C s).
Proof.
  intros o n C ord p st a th W Th eps s Hn HC Ha Ha0 Ha1 Ht Po HW HTh He (Hs & Hgap) Hit Hp R.
  destruct (relaxed_selection o n C ord p st Hn HC (ex_intro _ a Ha) Po Hp R) as (Nsel & Csel & Isel).
  cut (Permutation (r_selected (t_sol st)) (cover_edges s)).
  { intros P. split; [exact P|]. rewrite Csel. unfold cover_cost. f_equal. apply edges_cost_perm, P. }
  destruct (py_call_full o n C ord p HC Hp) as (DC & En & Co & L & _). rewrite En in Co.
  destruct (C51_first_stage o n C ord p st a Hn HC Ha Po Hp R) as (V & Dg & M & V0 & PH & PX).
  set (E := tsp_edges (p_in p)) in *.
  pose proof (cover_length n s Hs) as Ls.
  pose proof (qn_pos n ltac:(lia)) as Qn.
  set (delta := (eps / qn n)%Qc).
  assert (Ed : (qn n * delta)%Qc = eps) by (unfold delta; apply Qcmult_div_r; intros Q; rewrite Q in Qn; discriminate Qn).
  assert (Hd : (0 < delta)%Qc).
  { destruct (Qclt_le_dec 0 delta) as [H|H]; [exact H|]. exfalso.
    assert (X : (delta * qn n <= 0 * qn n)%Qc) by (apply mul_mono; qlra). qlra. }
  set (be := effective (q_filt o) a).
  assert (Hbe : (0 <= be /\ be < 1 /\ be <= a)%Qc).
  { unfold be, effective. destruct (_ && _); repeat split; try qlra. }
  destruct (potentials n (qat C) s W delta Hs) as (u & v & T1 & T2 & T3 & T4); auto.
  { intros s' H N. rewrite Ed, <- !cover_cost_sum by (auto using cover_length). apply Hgap; auto. }
  set (K := bound n W delta) in *.
  assert (sgl : forall i, i < n -> nth i s 0 < n) by (intros i Hi; eapply (sg_lt n s); eauto).
  assert (sgn : forall i, i < n -> nth i s 0 <> i) by (intros i Hi; eapply (sg_neq n s); eauto).
  assert (Dec : forall t i k, i < n -> k < n -> i <> k ->
    if k =? nth i s 0 then (rowm E M t i k + colm E M t i k + qat C i k <= K + K - qn t * ((1 - be) * delta))%Qc
    else (qn t * ((1 - be) * delta) - (K + K) <= rowm E M t i k + colm E M t i k + qat C i k)%Qc).
  { apply (decide n (qat C) (fun i => nth i s 0) u v delta K be) with (DR := rawr E Dg) (DC := rawc E Dg); auto.
    - intros i j. apply (sg_inj n s Hs).
    - intros k. apply (sg_onto n s Hs).
    - tauto.
    - intros t i k. apply (rawr_ok n E C (q_filt o) a V Dg M Hn Co V0); intros t'; apply (PH t').
    - intros t i k. apply (rawc_ok n E C (q_filt o) a V Dg M Hn Co V0); intros t'; apply (PH t').
    - intros t i k. apply (rowm_S n E C (q_filt o) a V Dg M Co); intros t'; apply (PH t'). }
  assert (W0 : (0 <= W)%Qc) by (destruct (HW 0 1); try lia; qlra).
  assert (Hpos : 0 < q_iters o).
  { destruct (q_iters o) as [|m] eqn:Q; [|lia]. exfalso. cbn [qn] in Hit.
    assert (X1 : (0 * qn n <= ((0 + 1 + 1 + 1 + 1) * qn n * W + (eps + eps) + Th) * qn n)%Qc).
    { apply mul_mono; [|qlra]. assert (0 * W <= qn n * W)%Qc by (apply mul_mono; qlra). qlra. }
    qlra. }
  set (T := q_iters o) in *.
  assert (Big : (K + K + Th < qn T * ((1 - be) * delta))%Qc).
  { destruct (Qclt_le_dec (K + K + Th) (qn T * ((1 - be) * delta))) as [H|H]; [exact H|]. exfalso.
    assert (X1 : (qn T * ((1 - be) * delta) * qn n <= (K + K + Th) * qn n)%Qc) by (apply mul_mono; qlra).
    assert (X2 : (qn T * ((1 - be) * delta) * qn n = (1 - be) * (eps * qn T))%Qc) by (rewrite <- Ed; ring).
    assert (X3 : ((1 - a) * (eps * qn T) <= (1 - be) * (eps * qn T))%Qc).
    { apply mul_mono; [qlra|]. rewrite <- (Qcmult_0_l (qn T)). apply mul_mono; [qlra|apply qn_nonneg]. }
    assert (X4 : ((K + K + Th) * qn n = qn n * ((qn 4 * qn n) * W + (eps + eps) + Th))%Qc).
    { unfold K, bound. rewrite <- Ed. cbn [qn]. ring. }
    rewrite X2, X4 in X1. assert (X5 : (qn T * ((1 - a) * eps) = (1 - a) * (eps * qn T))%Qc) by ring. rewrite X5 in Hit. clear - X1 X3 Hit. qlra. }
  assert (Val : forall i k, i < n -> k < n -> i <> k ->
    nth_error (r_intr (t_sol st)) (pos_of E i k) = Some (Fin (rowm E M T i k + colm E M T i k + qat C i k)%Qc)).
  { intros i k Hi Hk N. destruct (PX _ _ _ (edge n E Co i k Hi Hk N)) as (_ & _ & x & _ & Y & X). rewrite Y, (X Hpos).
    clearbody T. destruct T as [|m]; [lia|]. cbn [rowm colm]. rewrite Nat.sub_succ, Nat.sub_0_r. reflexivity. }
  assert (Ngt : forall x, ngt (Fin x) (Fin th) = qltb th x) by reflexivity.
  apply NoDup_Permutation; [exact Nsel| |].
  - apply (NoDup_map_inv fst). rewrite cover_edges_map, map_map. cbn [fst]. rewrite map_id. apply seq_NoDup.
  - intros (i, k). rewrite Isel, (in_cover_edges n) by auto. split.
    + intros (x & y & G & Y & B). assert (Hik : i < n /\ k < n /\ i <> k) by (apply (proj2 Co); exact (nth_error_In _ _ G)).
      destruct Hik as (Hi & Hk & N). split; [exact Hi|].
      rewrite (pos_of_unique _ _ _ _ (proj1 Co) G), Val in Y by auto. injection Y as <-.
      pose proof (Dec T i k Hi Hk N) as D. destruct (Nat.eqb_spec k (nth i s 0)) as [Q|Q]; [exact Q|]. exfalso.
      rewrite Ht, Ngt in B. destruct (qltb_spec th (rowm E M T i k + colm E M T i k + qat C i k)) as [H|H]; [discriminate|]. qlra.
    + intros (Hi & ->). set (k := nth i s 0). assert (Hk : k < n) by (apply sgl, Hi).
      assert (N : i <> k) by (apply not_eq_sym, sgn, Hi).
      exists (pos_of E i k), (Fin (rowm E M T i k + colm E M T i k + qat C i k)%Qc).
      split; [apply (edge n); auto|]. split; [apply Val; auto|]. rewrite Ht, Ngt.
      pose proof (Dec T i k Hi Hk N) as D. unfold k at 1 in D. rewrite Nat.eqb_refl in D.
      destruct (qltb_spec th (rowm E M T i k + colm E M T i k + qat C i k)) as [H|H]; [exfalso; qlra|reflexivity].
Qed.

(** ** If the cheapest cover is a tour *)
Lemma cover_functional n s E : cover n s -> Permutation E (cover_edges s) -> functional E.
Proof.
  intros Hs P u v v' I I'. apply (Permutation_in _ P) in I, I'.
  apply (in_cover_edges n) in I as (_ & ->); auto. apply (in_cover_edges n) in I' as (_ & ->); auto.
Qed.
Lemma path_in_perm E E' l : Permutation E E' -> path_in E l -> path_in E' l.
Proof. intros P H u v Cs. apply (Permutation_in _ P), H, Cs. Qed.
Lemma cycle_perm E E' l : Permutation E E' -> cycle E l -> cycle E' l.
Proof. intros P (N & x & t & Q & H). split; [exact N|]. exists x, t. split; [exact Q|]. eapply path_in_perm; eauto. Qed.
(** a graph with one successor per node and a Hamiltonian cycle has one loop *)
Lemma single_loop n E h ord : (forall l, Permutation (ord l) l) -> functional E -> (forall u v, In (u, v) E -> u < n /\ v < n) ->
  hamiltonian n E h -> exists t, get_closed_loops ord E = Some [t] /\ rotation h t.
Proof.
  intros Po F B (Ch & Pm). destruct (C16_loops_are_cycles ord E Po) as (loops & G & Cy & Di).
  destruct (C17_complete ord E Po) as (loops' & G' & Ne & _). rewrite G in G'. injection G' as <-.
  assert (R : forall l, In l loops -> rotation h l).
  { intros l I. pose proof (Cy l I) as Cl. pose proof Cl as (_ & x & t & -> & P).
    apply (cycle_share E h (x :: t) x F Ch Cl); [|now left].
    apply (Permutation_in _ (Permutation_sym Pm)), in_seq.
    destruct t as [|y t]; [|].
    - destruct (B x x); [|lia]. apply P. exists [], []. reflexivity.
    - destruct (B x y); [|lia]. apply P. exists [], (t ++ [x]). reflexivity. }
  destruct loops as [|t [|t' rest]].
  - destruct (proj2 Ne (ex_intro _ h Ch)). reflexivity.
  - exists t. split; [exact G|]. apply R; now left.
  - exfalso. apply (Di 0 1 t t' [] ltac:(lia) eq_refl eq_refl). rewrite app_nil_r.
    eapply rotation_trans; [apply rotation_sym, R; now left|apply R; right; now left].
Qed.
Lemma steps_closed E l x t : l = x :: t -> path_in E (l ++ [x]) <-> incl (steps (closed l)) E.
Proof. intros ->. apply path_steps. Qed.
(** the steps of a Hamiltonian cycle of a cover are the edges of the cover *)
Lemma steps_cover n s E h : cover n s -> Permutation E (cover_edges s) -> hamiltonian n E h ->
  Permutation (steps (closed h)) (cover_edges s).
Proof.
  intros Hs P ((N & x & t & -> & Pa) & Pm). apply Permutation_trans with E; [|exact P].
  apply NoDup_Permutation_bis.
  - apply steps_nodup, N.
  - rewrite (Permutation_length P), cover_edges_map, map_length, seq_length, (cover_length n s Hs).
    cbn [closed]. rewrite <- (map_length fst), steps_sources, (Permutation_length Pm), seq_length. lia.
  - apply path_steps, Pa.
Qed.
(** every ordering of the nodes is a tour of the complete graph *)
Lemma consecutive_last l z u v : consecutive (l ++ [z]) u v -> consecutive l u v \/ exists a, l = a ++ [u] /\ v = z.
Proof.
  intros (a & b & Q). destruct b as [|y b] using rev_ind.
  - right. change (a ++ [u; v]) with (a ++ [u] ++ [v]) in Q. rewrite app_assoc in Q. apply app_inj_tail in Q as (-> & ->). eauto.
  - left. exists a, b. change (a ++ u :: v :: b ++ [y]) with (a ++ (u :: v :: b) ++ [y]) in Q.
    rewrite app_assoc in Q. apply app_inj_tail in Q as (Q & _). exact Q.
Qed.
Lemma any_tour n E h : 2 <= n -> complete n E -> Permutation h (seq 0 n) -> hamiltonian n E h.
Proof.
  intros Hn Co P. assert (N : NoDup h) by (eapply Permutation_NoDup; [apply Permutation_sym, P|apply seq_NoDup]).
  assert (B : forall x, In x h -> x < n) by (intros x I; apply (Permutation_in _ P), in_seq in I; lia).
  split; [split; [exact N|]|exact P].
  destruct h as [|x t]; [apply Permutation_length in P; rewrite seq_length in P; cbn in P; lia|].
  exists x, t. split; [reflexivity|]. intros u v Cs. apply (proj2 Co).
  destruct (consecutive_last _ _ _ _ Cs) as [(a & b & Q)|(a & Q & ->)].
  - rewrite Q in N, B. split; [apply B, in_or_app; right; now left|]. split; [apply B, in_or_app; right; right; now left|].
    intros ->. apply NoDup_remove_2 in N. apply N, in_or_app. right; now left.
  - split; [apply B; rewrite Q; apply in_or_app; right; now left|]. split; [apply B; now left|]. intros ->.
    destruct a as [|y a]; cbn [app] in Q; injection Q as Q.
    + apply Permutation_length in P. rewrite seq_length in P. subst t. cbn in P. lia.
    + subst. inversion N as [|? ? N1 N2]; subst. apply N1, in_or_app; right; now left.
Qed.

(** If in addition the cheapest cover is a single tour [h], the whole call returns after the first
    stage, whatever the bound on the rounds: the reported tour is [h] (started at some node), the
    reported cost is its cost, and no ordering of the nodes gives a cheaper tour. *)
Theorem C59_cheapest_tour : forall fuel o n C ord a th W Th eps s h,
  3 <= n -> cost_matrix_ok n C -> q_alpha o = Fin a -> (0 <= a)%Qc -> (a < 1)%Qc -> q_thr o = Fin th ->
  (forall l, Permutation (ord l) l) ->
  (forall i k, i < n -> k < n -> i <> k -> (- W <= qat C i k /\ qat C i k <= W)%Qc) ->
  (- Th <= th /\ th <= Th)%Qc -> (0 < eps)%Qc -> cheapest_by n C s eps ->
  (qn n * ((qn 4 * qn n) * W + (eps + eps) + Th) < qn (q_iters o) * ((1 - a) * eps))%Qc ->
  hamiltonian n (cover_edges s) h ->
  exists st t, solved_ord fuel o n C ord = Some (Returned st) /\
    a_tour_flag (t_an st) = true /\ a_tour (t_an st) = closed t /\ rotation h t /\
    r_cost (t_sol st) = Fin (tour_cost C t) /\ c_num_aug (t_cnt st) = 0 /\
    forall h', Permutation h' (seq 0 n) -> (tour_cost C t <= tour_cost C h')%Qc.
Proof.
  intros fuel o n C ord a th W Th eps s h Hn HC Ha Ha0 Ha1 Ht Po HW HTh He Hch Hit Hh.
  destruct (py_call_ok o n C ord HC) as (p & M & Hp & En & Ee & Co & L & _ & _ & _ & _ & _ & _ & _ & Eo & _).
  destruct (C13_tsp_safe fuel o n C ord Hn HC (ex_intro _ a Ha) Po) as (p' & out & Hp' & Hout & _).
  rewrite Hp in Hp'. injection Hp' as <-.
  unfold solved_ord. rewrite Hp. cbn [bind]. unfold tsp_solve in Hout |- *.
  destruct (iterate_relaxed p (tsp_init p)) as [st|] eqn:R; [|discriminate]. cbn [bind].
  destruct (C59_cheapest_cover o n C ord p st a th W Th eps s) as (P & Cost); auto.
  destruct Hch as (Hs & Hgap).
  destruct (relaxed_inv _ _ _ R) as (_ & A & Ct & _).
  assert (Hh' : hamiltonian n (r_selected (t_sol st)) h).
  { destruct Hh as (H1 & H2). split; [|exact H2]. eapply cycle_perm; [apply Permutation_sym, P|exact H1]. }
  destruct (single_loop n (r_selected (t_sol st)) h ord Po) as (t & G & Rt); auto.
  { eapply cover_functional; eauto. }
  { intros u v I. apply (Permutation_in _ P), (in_cover_edges n) in I as (I1 & ->); auto. split; [auto|].
    eapply (sg_lt n s); eauto. }
  assert (Lt : length t = n).
  { rewrite <- (rotation_length _ _ Rt). destruct Hh as (_ & Pm). rewrite (Permutation_length Pm). apply seq_length. }
  destruct (analyse_inv _ _ _ _ A) as (loops & G' & _ & An). rewrite Eo, G in G'. injection G' as <-.
  destruct An as [Q|h0 Q Lh Dl (x & Hx & Tq) Fl Sa _ _ _|_ Q]; [discriminate| |exfalso; apply (Q t eq_refl); congruence].
  injection Q as <-. rewrite Sa. cbn [negb andb].
  assert (Et : a_tour (t_an st) = closed t).
  { rewrite Tq. destruct t as [|y t]; [discriminate|]. cbn in Hx. injection Hx as ->. reflexivity. }
  assert (Ht' : hamiltonian n (r_selected (t_sol st)) t).
  { destruct Hh' as (H1 & H2). split; [eapply rotation_cycle; eauto|].
    eapply Permutation_trans; [apply Permutation_sym, rotation_perm, Rt|exact H2]. }
  assert (Ec : cover_cost C s = tour_cost C t).
  { unfold cover_cost, tour_cost. symmetry. apply edges_cost_perm. eapply steps_cover; eauto. }
  exists st, t. split; [reflexivity|]. split; [exact Fl|]. split; [exact Et|]. split; [exact Rt|].
  split; [rewrite Cost, Ec; reflexivity|]. split; [rewrite Ct; reflexivity|].
  intros h' P'. destruct (tour_cover n (tsp_edges (p_in p)) h' Co) as (s' & Hs' & Ps').
  { apply any_tour; auto; lia. }
  rewrite <- Ec. unfold tour_cost. rewrite <- (edges_cost_perm C _ _ Ps'). change (edges_cost C (cover_edges s')) with (cover_cost C s').
  destruct (list_eq_dec Nat.eq_dec s' s) as [->|N]; [apply Qcle_refl|]. specialize (Hgap s' Hs' N). qlra.
Qed.

(** ** Without explicit bounds *)
Definition coverb (n : nat) (s : list nat) : bool :=
  (length s =? n) && forallb (fun x => existsb (Nat.eqb x) s) (seq 0 n) && forallb (fun i => negb (nth i s 0 =? i)) (seq 0 n).
Lemma coverb_ok n s : coverb n s = true <-> cover n s.
Proof.
  unfold coverb. rewrite !andb_true_iff, Nat.eqb_eq, !forallb_forall. split.
  - intros ((L & A) & B). split.
    + apply Permutation_sym, NoDup_Permutation_bis; [apply seq_NoDup|rewrite seq_length; lia|].
      intros x I. apply A in I. apply existsb_exists in I as (y & I & Q). apply Nat.eqb_eq in Q. now subst.
    + intros i Q. assert (Hi : i < n) by (rewrite <- L; apply nth_error_Some; congruence).
      specialize (B i ltac:(apply in_seq; lia)). rewrite (nth_error_nth _ _ _ Q), Nat.eqb_refl in B. discriminate.
  - intros H. pose proof (cover_length n s H) as L. split; [split|].
    + exact L.
    + intros x I. apply existsb_exists. exists x. split; [apply (Permutation_in _ (Permutation_sym (proj1 H))), I|apply Nat.eqb_refl].
    + intros i I. apply in_seq in I. apply negb_true_iff, Nat.eqb_neq. eapply (sg_neq n s); eauto. lia.
Qed.
Lemma cover_listed n s : cover n s -> In s (lists_upto n n).
Proof.
  intros H. apply in_lists_upto; [rewrite (cover_length n s H); lia|].
  intros x I. apply (Permutation_in _ (proj1 H)), in_seq in I. lia.
Qed.
Lemma gap_exists {A} (f : A -> Qc) (P : A -> Prop) c l : (forall x, In x l -> {P x} + {~ P x}) -> (forall x, In x l -> P x -> (c < f x)%Qc) ->
  exists eps, (0 < eps)%Qc /\ forall x, In x l -> P x -> (c + eps <= f x)%Qc.
Proof.
  induction l as [|y l IH]; intros D H.
  - exists 1%Qc. split; [reflexivity|intros x []].
  - destruct IH as (eps & He & G); [intros x I; apply D; now right|intros x I; apply H; now right|].
    destruct (D y (or_introl eq_refl)) as [Py|Ny].
    + pose proof (H y (or_introl eq_refl) Py) as Hy. destruct (Qclt_le_dec eps (f y - c)) as [X|X].
      * exists eps. split; [exact He|]. intros x [<-|I] Px; [qlra|apply G; auto].
      * exists (f y - c)%Qc. split; [qlra|]. intros x [<-|I] Px; [qlra|]. specialize (G x I Px). qlra.
    + exists eps. split; [exact He|]. intros x [<-|I] Px; [contradiction|apply G; auto].
Qed.
Lemma cost_bounds n C : exists W, forall i k, i < n -> k < n -> (- W <= qat C i k /\ qat C i k <= W)%Qc.
Proof.
  set (l := flat_map (fun i => flat_map (fun k => [qat C i k; - qat C i k]%Qc) (seq 0 n)) (seq 0 n)).
  exists (qmax0 l). intros i k Hi Hk.
  assert (I : forall x, In x [qat C i k; - qat C i k]%Qc -> In x l).
  { intros x I. apply in_flat_map. exists i. split; [apply in_seq; lia|]. apply in_flat_map. exists k. split; [apply in_seq; lia|exact I]. }
  pose proof (qmax0_ge l _ (I _ (or_introl eq_refl))). pose proof (qmax0_ge l _ (I _ (or_intror (or_introl eq_refl)))). qlra.
Qed.
Lemma qn_this k : (this (qn k) == inject_Z (Z.of_nat k))%Q.
Proof.
  induction k as [|k IH]; [reflexivity|]. cbn [qn]. rewrite this_add, IH, Nat2Z.inj_succ. unfold Z.succ. rewrite inject_Z_plus. reflexivity.
Qed.
Lemma qn_above x : exists k, (x < qn k)%Qc.
Proof.
  exists (Z.to_nat (Z.abs (Qnum (this x)) + 1)). unfold Qclt. rewrite qn_this. rewrite Z2Nat.id by lia.
  destruct (this x) as [p q]. unfold Qlt, inject_Z; cbn. nia.
Qed.
Lemma qn_above_mul x y : (0 < y)%Qc -> exists k, forall m, k <= m -> (x < qn m * y)%Qc.
Proof.
  intros Hy. destruct (qn_above (x / y)) as (k & H). exists k. intros m Hm.
  assert (Ex : ((x / y) * y = x)%Qc) by (rewrite Qcmult_comm; apply Qcmult_div_r; intros ->; discriminate Hy).
  rewrite <- Ex. apply Qcmult_lt_compat_r; [exact Hy|]. eapply Qclt_le_trans; [exact H|apply qn_mono, Hm].
Qed.
Lemma cheapest_gap n C s : cheapest n C s -> exists eps, (0 < eps)%Qc /\ cheapest_by n C s eps.
Proof.
  intros (Hs & H).
  destruct (gap_exists (cover_cost C) (fun s' => coverb n s' = true /\ s' <> s) (cover_cost C s) (lists_upto n n)) as (eps & He & G).
  - intros x _. destruct (list_eq_dec Nat.eq_dec x s) as [->|N]; [right; tauto|]. destruct (coverb n x); [left; auto|right; intros (Q & _); discriminate].
  - intros x _ (Q & N). apply H; auto. apply coverb_ok, Q.
  - exists eps. split; [exact He|]. split; [exact Hs|]. intros s' Hs' N. apply G; [apply cover_listed, Hs'|split; [apply coverb_ok, Hs'|exact N]].
Qed.

(** If the cheapest cover is unique, a sufficiently large number of iterations finds it, for every
    filter factor below 1 and every threshold. *)
Theorem C59_eventually : forall n C a th s,
  3 <= n -> cost_matrix_ok n C -> (0 <= a)%Qc -> (a < 1)%Qc -> cheapest n C s ->
  exists T0, forall o ord p st, q_alpha o = Fin a -> q_thr o = Fin th -> T0 <= q_iters o ->
    (forall l, Permutation (ord l) l) ->
    py_call o n (inj C) ord = Some p -> iterate_relaxed p (tsp_init p) = Some st ->
    Permutation (r_selected (t_sol st)) (cover_edges s) /\ r_cost (t_sol st) = Fin (cover_cost C s).
Proof.
  intros n C a th s Hn HC Ha0 Ha1 Hc. destruct (cheapest_gap n C s Hc) as (eps & He & Hg).
  destruct (cost_bounds n C) as (W & HW). set (Th := if qltb th 0 then (- th)%Qc else th).
  assert (HTh : (- Th <= th /\ th <= Th)%Qc) by (unfold Th; destruct (qltb_spec th 0); split; qlra).
  assert (Hy : (0 < (1 - a) * eps)%Qc).
  { rewrite <- (Qcmult_0_l eps). apply Qcmult_lt_compat_r; [exact He|qlra]. }
  destruct (qn_above_mul (qn n * ((qn 4 * qn n) * W + (eps + eps) + Th))%Qc _ Hy) as (T0 & H0).
  exists T0. intros o ord p st Ea Et HT Po Hp R.
  apply (C59_cheapest_cover o n C ord p st a th W Th eps s); auto.
Qed.

(** ** Examples *)
Definition gap_check (n : nat) (C : list (list Qc)) (s : list nat) (eps : Qc) : bool :=
  coverb n s && forallb (fun s' => negb (coverb n s') || (if list_eq_dec Nat.eq_dec s' s then true else Qle_bool (cover_cost C s + eps)%Qc (cover_cost C s')))
    (lists_upto n n).
Lemma gap_check_ok n C s eps : gap_check n C s eps = true -> cheapest_by n C s eps.
Proof.
  unfold gap_check. rewrite andb_true_iff, forallb_forall. intros (H & G). split; [apply coverb_ok, H|].
  intros s' Hs' N. specialize (G s' (cover_listed n s' Hs')). rewrite (proj2 (coverb_ok n s') Hs') in G. cbn [negb orb] in G.
  destruct (list_eq_dec Nat.eq_dec s' s) as [|_]; [contradiction|]. apply Qle_bool_iff in G. exact G.
Qed.
Definition cm59 := mat [[0; 3; 9; 7]; [8; 0; 2; 9]; [9; 6; 0; 1]; [2; 8; 7; 0]]%Z.
Lemma cm59_ok : cost_matrix_ok 4 cm59.
Proof. check_matrix. Qed.
Lemma within_W n C W : forallb (fun i => forallb (fun k => Qle_bool (- W)%Qc (qat C i k) && Qle_bool (qat C i k) W) (seq 0 n)) (seq 0 n) = true ->
  forall i k, i < n -> k < n -> i <> k -> (- W <= qat C i k /\ qat C i k <= W)%Qc.
Proof.
  intros H i k Hi Hk _. rewrite forallb_forall in H. specialize (H i ltac:(apply in_seq; lia)).
  rewrite forallb_forall in H. specialize (H k ltac:(apply in_seq; lia)). apply andb_prop in H as (A & B).
  apply Qle_bool_iff in A, B. split; [exact A|exact B].
Qed.
(** A tour is cheaper by 7 than every other cover; with filter factor 1/2 and 200 iterations all
    hypotheses hold, and the call returns the tour 0, 1, 2, 3 with cost 8. *)
Example C59_tour_example :
  hamiltonian 4 (cover_edges [1; 2; 3; 0]) [0; 1; 2; 3] /\ cheapest_by 4 cm59 [1; 2; 3; 0] (Q2Qc 7) /\
  exists st t, solved_ord 10 (opt 200 true 20 3) 4 cm59 (fun l => l) = Some (Returned st) /\
    a_tour (t_an st) = closed t /\ rotation [0; 1; 2; 3] t /\ r_cost (t_sol st) = Fin (tour_cost cm59 t).
Proof.
  assert (A : hamiltonian 4 (cover_edges [1; 2; 3; 0]) [0; 1; 2; 3]).
  { split; [|apply Permutation_refl]. split; [repeat constructor; cbn; intuition discriminate|].
    exists 0, [1; 2; 3]. split; [reflexivity|]. apply path_steps. intros e I. cbn in I |- *. tauto. }
  assert (B : cheapest_by 4 cm59 [1; 2; 3; 0] (Q2Qc 7)) by (apply gap_check_ok; vm_compute; reflexivity).
  split; [exact A|]. split; [exact B|].
  destruct (C59_cheapest_tour 10 (opt 200 true 20 3) 4 cm59 (fun l => l) (Q2Qc (1 # 2)) (match thr4 with Fin q => q | _ => 0%Qc end)
    (Q2Qc 9) 1%Qc (Q2Qc 7) [1; 2; 3; 0] [0; 1; 2; 3]) as (st & t & H1 & _ & H2 & H3 & H4 & _); auto.
  - exact cm59_ok.
  - apply Qle_bool_iff. vm_compute; reflexivity.
  - reflexivity.
  - apply within_W. vm_compute; reflexivity.
  - split; apply Qle_bool_iff; vm_compute; reflexivity.
  - reflexivity.
  - vm_compute; reflexivity.
  - exists st, t. auto.
Qed.
(** far fewer iterations are enough here *)
Example C59_few_iterations :
  option_map (fun x => fst x) (ends_with (solved_ord 10 (opt 6 true 20 3) 4 cm59 (fun l => l))) = Some ([(0, 1); (1, 2); (2, 3); (3, 0)], 0).
Proof. vm_compute. reflexivity. Qed.
(** the cheapest cover of [cm4] is not a tour: two pairs of nodes visiting each other *)
Example C59_cover_example : cheapest_by 4 cm4 [1; 0; 3; 2] (Q2Qc 4) /\
  match py_call (opt 12 true 20 3) 4 (inj cm4) (fun l => l) with
  | Some p => option_map (fun st => r_selected (t_sol st)) (iterate_relaxed p (tsp_init p))
  | None => None
  end = Some (cover_edges [1; 0; 3; 2]).
Proof. split; [apply gap_check_ok; vm_compute; reflexivity|vm_compute; reflexivity]. Qed.

(** ** Filter factor 1 *)
(** With filtering on and factor 1 the messages stay 0: the first stage selects exactly the edges
    whose cost is at most the threshold, for any positive number of iterations.  So the hypothesis
    [a < 1] is needed. *)
Theorem C59_alpha_one_refuted : forall o n C ord p st,
  3 <= n -> cost_matrix_ok n C -> q_alpha o = Fin 1%Qc -> q_filt o = true -> 0 < q_iters o ->
  (forall l, Permutation (ord l) l) ->
  py_call o n (inj C) ord = Some p -> iterate_relaxed p (tsp_init p) = Some st ->
  forall u v, In (u, v) (r_selected (t_sol st)) <-> u < n /\ v < n /\ u <> v /\ ngt (Fin (qat C u v)) (q_thr o) = false.
Proof.
  intros o n C ord p st Hn HC Ha Hf Hi Po Hp R u v.
  destruct (relaxed_selection o n C ord p st Hn HC (ex_intro _ 1%Qc Ha) Po Hp R) as (_ & _ & Isel). rewrite Isel.
  destruct (py_call_full o n C ord p HC Hp) as (DC & En & Co & L & _). rewrite En in Co.
  destruct (C51_first_stage o n C ord p st 1%Qc Hn HC Ha Po Hp R) as (V & Dg & M & V0 & PH & PX).
  set (E := tsp_edges (p_in p)) in *.
  assert (Z : forall t i u v, nth_error E i = Some (u, v) -> qat (M t) i u = 0%Qc /\ qat (M t) i v = 0%Qc).
  { intros t i u' v' G. destruct (PH t) as (_ & X). destruct (X i u' v' G) as (-> & -> & _). clear - Hf.
    assert (F : forall d, filtered (q_filt o) 1 d t = 0%Qc).
    { intros d. induction t as [|t IH]; [rewrite filtered_0|rewrite filtered_S, IH]; rewrite Hf;
        change (effective true 1) with 1%Qc; ring. }
    auto. }
  assert (Y : forall i, nth_error E i = Some (u, v) -> nth_error (r_intr (t_sol st)) i = Some (Fin (qat C u v))).
  { intros i G. destruct (PX i u v G) as (_ & _ & x & _ & Y & X). rewrite Y, (X Hi). destruct (Z (q_iters o - 1) i u v G) as (-> & ->).
    f_equal. f_equal. ring. }
  split.
  - intros (i & y & G & Gy & B). rewrite (Y i G) in Gy. injection Gy as <-.
    assert (u < n /\ v < n /\ u <> v) by (apply (proj2 Co); exact (nth_error_In _ _ G)). tauto.
  - intros (Hu & Hv & N & B). assert (I : In (u, v) E) by (apply (proj2 Co); auto).
    destruct (In_nth_error _ _ I) as (i & G). exists i, (Fin (qat C u v)). auto.
Qed.
Print Assumptions C59_cheapest_cover.
Print Assumptions C59_cheapest_tour.
Print Assumptions C59_eventually.
Print Assumptions C59_alpha_one_refuted.
