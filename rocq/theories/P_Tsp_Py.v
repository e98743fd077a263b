(** * Arrays built by the Python front end of the TSP solver *)
From Coq Require Import Permutation.
From Verif Require Import Num NumFacts Arr ArrFacts Spec SpecGraph MinSum MinSumFacts.
From Verif Require Import M_Tsp_Constraints P_Tsp_Constraints P_Kc_Trellis P_Ksat M_Equality P_Equality.
From Verif Require Import M_Filter P_Filter M_InOut P_InOut T_InOut M_Runs P_Runs.
From Verif Require Import M_Tsp_Loops P_Tsp_Loops M_Tsp_Run P_Tsp_Run P_Tsp_Fin M_Tsp_Py.
Local Open Scope nat_scope.

Lemma map_pair_nodup : forall (x : nat) (l : list nat), NoDup l -> NoDup (map (pair x) l).
Proof.
  intros x l H; induction H as [|a l N H IH]; cbn; constructor; [|exact IH].
  intros I; apply in_map_iff in I as (b & Q & I); injection Q as ->; auto.
Qed.
Lemma list_prod_nodup : forall (l l' : list nat), NoDup l -> NoDup l' -> NoDup (list_prod l l').
Proof.
  intros l l' H H'; induction H as [|a l N H IH]; cbn; [constructor|].
  assert (G : forall A B : list (nat * nat), NoDup A -> NoDup B -> (forall x, In x A -> ~ In x B) -> NoDup (A ++ B)).
  { clear. intros A B HA HB D. induction HA as [|x A Nx HA IH]; cbn; [exact HB|]. constructor.
    - intros I; apply in_app_iff in I as [I|I]; [auto|]. exact (D x (or_introl eq_refl) I).
    - apply IH. intros y Hy; apply D; now right. }
  apply G; [now apply map_pair_nodup|exact IH|].
  intros x I J; apply in_map_iff in I as (b & <- & _); apply in_prod_iff in J as (J & _); auto.
Qed.
Lemma py_edges_filter : forall n cm, shape n n cm ->
  py_edges cm = filter (fun e => negb (neqb (nth (snd e) (nth (fst e) cm []) n0) n0))
                       (list_prod (seq 0 n) (seq 0 n)).
Proof.
  intros n cm H; unfold py_edges. replace (length cm) with n by (symmetry; apply H).
  assert (G : forall l, (forall i, In i l -> i < n) ->
    concat (map (fun i => map (pair i)
              (filter (fun j => negb (neqb (nth j (nth i cm []) n0) n0)) (seq 0 (length (nth i cm []))))) l)
    = filter (fun e => negb (neqb (nth (snd e) (nth (fst e) cm []) n0) n0)) (list_prod l (seq 0 n))).
  { induction l as [|i l IH]; intros Hl; cbn [map concat list_prod]; [reflexivity|].
    rewrite filter_app, IH by (intros j Hj; apply Hl; now right). f_equal.
    assert (Lr : length (nth i cm []) = n).
    { destruct H as (L & F). rewrite Forall_forall in F. apply F, nth_In. rewrite L. apply Hl; now left. }
    cbn zeta. rewrite Lr. clear. induction (seq 0 n) as [|j s IHs]; cbn; [reflexivity|].
    destruct (neqb _ _); cbn; [exact IHs|now rewrite IHs]. }
  apply G. intros i Hi; apply in_seq in Hi; lia.
Qed.
Lemma in_py_edges : forall n cm u v, shape n n cm ->
  In (u, v) (py_edges cm) <-> u < n /\ v < n /\ neqb (nth v (nth u cm []) n0) n0 = false.
Proof.
  intros n cm u v H; rewrite (py_edges_filter n cm H), filter_In, in_prod_iff, !in_seq, negb_true_iff. cbn. intuition lia.
Qed.
Lemma py_edges_nodup : forall n cm, shape n n cm -> NoDup (py_edges cm).
Proof.
  intros n cm H; rewrite (py_edges_filter n cm H). apply NoDup_filter, list_prod_nodup; apply seq_NoDup.
Qed.
Lemma py_edges_in : forall n cm, shape n n cm -> edges_in n (py_edges cm).
Proof.
  intros n cm H; apply Forall_forall; intros (u & v) I; apply (in_py_edges n) in I; [cbn; tauto|exact H].
Qed.
Lemma complete_length : forall n E, complete n E -> length E = n * n - n.
Proof.
  intros n E (N & H).
  assert (P : Permutation (map (fun i => (i, i)) (seq 0 n) ++ E) (list_prod (seq 0 n) (seq 0 n))).
  { apply NoDup_Permutation.
    - assert (G : forall A B : list (nat * nat), NoDup A -> NoDup B -> (forall x, In x A -> ~ In x B) -> NoDup (A ++ B)).
      { clear. intros A B HA HB D. induction HA as [|x A Nx HA IH]; cbn; [exact HB|]. constructor.
        - intros I; apply in_app_iff in I as [I|I]; [auto|]. exact (D x (or_introl eq_refl) I).
        - apply IH. intros y Hy; apply D; now right. }
      apply G; [|exact N|].
      + apply FinFun.Injective_map_NoDup; [intros a b Q; now injection Q|apply seq_NoDup].
      + intros x I J; apply in_map_iff in I as (i & <- & _); apply H in J; tauto.
    - apply list_prod_nodup; apply seq_NoDup.
    - intros (u & v); rewrite in_app_iff, in_prod_iff, in_map_iff, !in_seq, H. split.
      + intros [(i & Q & Hi)|Hx]; [injection Q as <- <-; apply in_seq in Hi; lia|lia].
      + intros (Hu & Hv). destruct (Nat.eq_dec u v) as [->|D]; [left; exists v; split; [reflexivity|apply in_seq; lia]|right; lia]. }
  apply Permutation_length in P. rewrite app_length, map_length, prod_length, !seq_length in P. lia.
Qed.

(** a finite cost matrix with a zero diagonal and no zero elsewhere *)
Definition cost_matrix_ok (n : nat) (C : list (list Qc)) : Prop :=
  shape n n C /\ (forall u, u < n -> qat C u u = 0%Qc)
  /\ (forall u v, u < n -> v < n -> u <> v -> qat C u v <> 0%Qc).
Lemma neqb_zero_iff : forall q, neqb (Fin q) n0 = true <-> q = 0%Qc.
Proof. intros q; split; [apply neqb_zero|intros ->; reflexivity]. Qed.
Lemma nth_inj : forall n C u v, shape n n C -> u < n -> v < n -> nth v (nth u (inj C) []) n0 = Fin (qat C u v).
Proof.
  intros n C u v H Hu Hv. unfold inj, qat. change (@nil num) with (map Fin []). rewrite map_nth.
  change n0 with (Fin 0%Qc). apply map_nth.
Qed.
Lemma py_edges_complete : forall n C, cost_matrix_ok n C -> complete n (py_edges (inj C)).
Proof.
  intros n C (H & D & O). assert (S : shape n n (inj C)) by (apply shape_inj; exact H).
  split; [exact (py_edges_nodup _ _ S)|]. intros u v. rewrite (in_py_edges n) by exact S. split.
  - intros (Hu & Hv & Q). rewrite (nth_inj n) in Q by auto. repeat split; auto. intros <-.
    rewrite D in Q by auto. discriminate.
  - intros (Hu & Hv & N). repeat split; auto. rewrite (nth_inj n) by auto.
    destruct (neqb _ _) eqn:Q; [|reflexivity]. apply neqb_zero_iff in Q. exfalso; exact (O u v Hu Hv N Q).
Qed.

Lemma map_upd : forall {A B} (f : A -> B) l i v, map f (upd l i v) = upd (map f l) i (f v).
Proof. intros A B f l; induction l as [|x l IH]; intros [|i] v; cbn; auto. now rewrite IH. Qed.
Lemma nth_upd_eq : forall {A} (l : list A) i v d, i < length l -> nth i (upd l i v) d = v.
Proof. intros A l; induction l as [|x l IH]; intros [|i] v d H; cbn in *; try lia; auto. apply IH; lia. Qed.
Lemma nth_upd_neq : forall {A} (l : list A) i j v d, i <> j -> nth j (upd l i v) d = nth j l d.
Proof. intros A l; induction l as [|x l IH]; intros [|i] [|j] v d H; cbn in *; try lia; auto. Qed.
Lemma py_arrays_ok : forall n C E, shape n n C -> edges_in n E -> no_self_loop E -> length E = py_num_edges n ->
  exists c M, py_tsp_arrays n (inj C) E = Some (map Fin c, inj M) /\ length c = length E
    /\ shape (length E) n M
    /\ c = map (fun e => qat C (fst e) (snd e)) E
    /\ forall i u v w, nth_error E i = Some (u, v) -> w < n ->
         qat M i w = if (w =? u) || (w =? v) then qat C u v else 0%Qc.
Proof.
  intros n C E HC HE HS HL. unfold py_tsp_arrays. rewrite <- HL.
  match goal with |- context [for_up 0 ?k0 ?st0 ?bd] =>
    destruct (for_up_ind 0 k0 st0 bd (fun k st => exists c M, st = (map Fin c, inj M) /\ length c = length E
      /\ shape (length E) n M
      /\ (forall i u v, i < k -> nth_error E i = Some (u, v) -> nth i c 0%Qc = qat C u v)
      /\ (forall i u v w, i < k -> nth_error E i = Some (u, v) -> w < n ->
            qat M i w = if (w =? u) || (w =? v) then qat C u v else 0%Qc)
      /\ (forall i w, k <= i -> qat M i w = 0%Qc))) as (st & Es & Hs) end.
  - lia.
  - exists (repeat 0%Qc (length E)), (repeat (repeat 0%Qc n) (length E)).
    split; [unfold zeros, inj; rewrite !map_repeat; reflexivity|].
    split; [apply repeat_length|]. split; [apply shape_repeat|].
    split; [intros; lia|]. split; [intros; lia|].
    intros i w _. unfold qat. clear. destruct (nth_in_or_default i (repeat (repeat 0%Qc n) (length E)) []) as [I|I].
    + apply repeat_spec in I. rewrite I. destruct (nth_in_or_default w (repeat 0%Qc n) 0%Qc) as [J|J]; [|exact J].
      exact (repeat_spec _ _ _ J).
    + rewrite I; destruct w; reflexivity.
  - intros k st Hk (c & M & -> & Lc & SM & Ic & IM & IZ).
    destruct (get_lt E k) as ((u & v) & G); [lia|]. cbn beta iota. rewrite G. cbn [bind].
    assert (Hu : u < n /\ v < n) by (unfold edges_in in HE; rewrite Forall_forall in HE; exact (HE _ (nth_error_In _ _ G))).
    rewrite (get2_inj n n) by (tauto || auto). cbn [bind].
    rewrite set_lt by (rewrite map_length; lia). cbn [bind].
    assert (SI : shape (length E) n (inj M)) by (apply shape_inj; exact SM).
    rewrite (set2_lt (length E) n) by (auto; lia). cbn [bind].
    rewrite (set2_lt (length E) n) by (try apply shape_upd2; auto; lia). cbn [bind].
    assert (F : exists M', upd2 (upd2 (inj M) k u (Fin (qat C u v))) k v (Fin (qat C u v)) = inj M' /\ shape (length E) n M'
       /\ forall i w, i < length E -> w < n -> qat M' i w = if (i =? k) && ((w =? u) || (w =? v)) then qat C u v else qat M i w).
    { destruct (fin_mat (length E) n (upd2 (upd2 (inj M) k u (Fin (qat C u v))) k v (Fin (qat C u v)))) as (M' & S' & E').
      - apply shape_upd2, shape_upd2; exact SI.
      - intros i w Hi Hw. rewrite (get2_upd2 (length E) n) by (try apply shape_upd2; auto; lia).
        destruct (_ && _); [eauto|]. rewrite (get2_upd2 (length E) n) by (auto; lia).
        destruct (_ && _); [eauto|]. rewrite (get2_inj (length E) n) by auto. eauto.
      - exists M'; split; [exact E'|]. split; [exact S'|]. intros i w Hi Hw.
        assert (Q : get2 (inj M') i w = Some (Fin (qat M' i w))) by (apply (get2_inj (length E) n); auto).
        rewrite <- E' in Q. rewrite (get2_upd2 (length E) n) in Q by (try apply shape_upd2; auto; lia).
        rewrite (get2_upd2 (length E) n) in Q by (auto; lia). rewrite (get2_inj (length E) n) in Q by auto.
        rewrite (Nat.eqb_sym k i), (Nat.eqb_sym u w), (Nat.eqb_sym v w) in Q || idtac.
        destruct (i =? k), (w =? u), (w =? v); cbn in *; congruence. }
    destruct F as (M' & EM & SM' & HM').
    eexists; split; [reflexivity|]. exists (upd c k (qat C u v)), M'. rewrite EM.
    split; [f_equal; symmetry; apply map_upd|]. split; [rewrite upd_length; exact Lc|]. split; [exact SM'|].
    split; [|split].
    + intros i u' v' Hi Gi. destruct (Nat.eq_dec i k) as [->|Ni].
      * rewrite nth_upd_eq by lia. unfold get in G; congruence.
      * rewrite nth_upd_neq by auto. apply (Ic i u' v'); [lia|exact Gi].
    + intros i u' v' w Hi Gi Hw. rewrite HM' by (auto; lia). destruct (Nat.eqb_spec i k) as [->|Ni]; cbn [andb].
      * assert (Q : (u, v) = (u', v')) by (unfold get in G; congruence). injection Q as -> ->.
        destruct (_ || _) eqn:B; [reflexivity|]. apply IZ; lia.
      * apply (IM i u' v' w); [lia|exact Gi|exact Hw].
    + intros i w Hi.
      destruct (Nat.lt_ge_cases i (length E)) as [Li|Li]; [destruct (Nat.lt_ge_cases w n) as [Lw|Lw]|].
      * rewrite HM' by auto. destruct (Nat.eqb_spec i k); [lia|]. apply IZ; lia.
      * unfold qat. destruct SM' as (A & B). apply nth_overflow. rewrite Forall_forall in B.
        rewrite (B (nth i M' [])); [exact Lw|apply nth_In; lia].
      * unfold qat. rewrite (nth_overflow M') by (destruct SM'; lia). destruct w; reflexivity.
  - destruct Hs as (c & M & -> & Lc & SM & Ic & IM & _). exists c, M. split; [exact Es|].
    split; [exact Lc|]. split; [exact SM|]. split.
    + apply nth_ext with 0%Qc 0%Qc; [now rewrite map_length|]. intros i Hi. rewrite Lc in Hi.
      destruct (get_lt E i Hi) as ((u & v) & G). rewrite (Ic i u v Hi G).
      symmetry. rewrite (nth_indep _ 0%Qc (qat C (fst (0, 0)) (snd (0, 0)))) by (rewrite map_length; exact Hi).
      rewrite (map_nth (fun e => qat C (fst e) (snd e)) E (0, 0) i), (nth_error_nth E i (0, 0) G). reflexivity.
    + intros i u v w G Hw. apply (IM i u v w); auto. apply get_Some_lt in G. exact G.
Qed.

(** ** Number of loops *)
Lemma filter_partition_length : forall {A} (f : A -> bool) l,
  length l = length (filter f l) + length (filter (fun x => negb (f x)) l).
Proof. intros A f l; induction l as [|x l IH]; cbn; [reflexivity|]. destruct (f x); cbn; lia. Qed.
Lemma filter_filter : forall {A} (f g : A -> bool) l, filter f (filter g l) = filter (fun x => g x && f x) l.
Proof. intros A f g l; induction l as [|x l IH]; cbn; [reflexivity|]. destruct (g x); cbn; [destruct (f x)|]; now rewrite IH. Qed.
Lemma found_length : forall starts E, NoDup starts -> length (found E starts) <= length E.
Proof.
  intros starts E N.
  assert (G : forall E', length (flat_map (fun s => filter (fun e : nat * nat => fst e =? s) E') starts) <= length E').
  { induction N as [|s starts Ns N IH]; intros E'; cbn; [lia|].
    rewrite app_length. specialize (IH (filter (fun e => negb (fst e =? s)) E')).
    assert (Q : flat_map (fun s0 => filter (fun e : nat * nat => fst e =? s0) (filter (fun e => negb (fst e =? s)) E')) starts
              = flat_map (fun s0 => filter (fun e : nat * nat => fst e =? s0) E') starts).
    { clear IH. induction starts as [|s0 starts IH]; cbn; [reflexivity|]. inversion N; subst. rewrite IH; auto.
      - f_equal. rewrite filter_filter. apply filter_ext. intros (a & b); cbn.
        destruct (Nat.eqb_spec a s0) as [->|]; [|now rewrite andb_false_r].
        destruct (Nat.eqb_spec s0 s) as [->|]; [|reflexivity]. exfalso; apply Ns; now left.
      - intros I; apply Ns; now right. }
    rewrite Q in IH. pose proof (filter_partition_length (fun e : nat * nat => fst e =? s) E'). lia. }
  specialize (G E). unfold found.
  assert (X : forall l, length (flat_map (fun s => flat_map (fun e => match loop_from E s e with [] => [] | p => [p] end) (succs E s)) l)
            <= length (flat_map (fun s => filter (fun e : nat * nat => fst e =? s) E) l)).
  { induction l as [|s l IH]; cbn; [lia|]. rewrite !app_length. apply Nat.add_le_mono; [|exact IH].
    unfold succs. rewrite <- (map_length snd (filter _ E)). generalize (map snd (filter (fun e : nat * nat => fst e =? s) E)) as vs.
    induction vs as [|v vs IHv]; cbn; [lia|]. rewrite app_length. destruct (loop_from E s v); cbn; lia. }
  specialize (X starts). lia.
Qed.
Lemma loops_count : forall ord E loops, (forall l, Permutation (ord l) l) ->
  get_closed_loops ord E = Some loops -> length loops <= length E.
Proof.
  intros ord E loops Po G. rewrite (loops_eq _ Po) in G. injection G as <-.
  assert (N : NoDup (ord (keys (build_graph E)))).
  { apply (Permutation_NoDup (Permutation_sym (Po _))), keys_nodup. }
  pose proof (found_length _ E N) as H. unfold keep_loops. rewrite map_length.
  set (F := found E (ord (keys (build_graph E)))) in *.
  pose proof (filter_partition_length (fun i => negb (existsb (Nat.eqb i) (to_drop F))) (seq 0 (length F))) as Q.
  rewrite seq_length in Q. lia.
Qed.
Lemma concat_bound : forall (ls : list (list nat)) b, Forall (fun l => length l <= b) ls -> length (concat ls) <= length ls * b.
Proof. intros ls b H; induction H as [|l ls Hl H IH]; cbn; [lia|]. rewrite app_length. lia. Qed.
