(** * TSP runs with two iteration orders of the hash map (C++) *)
From Coq Require Import Permutation.
From Verif Require Import Num NumFacts Arr ArrFacts Spec SpecGraph SpecRun MinSum MinSumFacts.
From Verif Require Import M_Tsp_Constraints P_Tsp_Constraints P_Kc_Trellis P_Ksat M_Equality P_Equality.
From Verif Require Import M_Filter P_Filter M_InOut P_InOut M_Runs P_Runs P_Schedule.
From Verif Require Import M_Tsp_Loops P_Tsp_Loops M_Tsp_Run P_Tsp_Run P_Tsp_Fin P_Tsp_Sched P_Tsp_Rounds.
From Verif Require Import P_PyRef_Ksat P_PyRef_Run M_PyRef_Tsp P_PyRef_Tsp.
Local Open Scope nat_scope.

(** ** Loops of a graph in which every node has at most one outgoing edge *)
Definition functional (E : list (nat * nat)) : Prop := forall u v v', In (u, v) E -> In (u, v') E -> v = v'.

Lemma path_det E : functional E -> forall l x l' z, path_in E (x :: l ++ [z]) -> path_in E (x :: l' ++ [z]) ->
  ~ In z l -> ~ In z l' -> l = l'.
Proof.
  intros F. induction l as [|y l IH]; intros x [|y' l'] z P P' N N'; cbn [app] in P, P'; auto.
  - apply path_in_cons in P as (I & _). apply path_in_cons in P' as (I' & _). rewrite (F _ _ _ I I') in N'. destruct N'. now left.
  - apply path_in_cons in P as (I & _). apply path_in_cons in P' as (I' & _). rewrite (F _ _ _ I' I) in N. destruct N. now left.
  - apply path_in_cons in P as (I & P). apply path_in_cons in P' as (I' & P'). pose proof (F _ _ _ I I') as <-. f_equal.
    apply (IH y l' z); auto; intros X; [apply N|apply N']; now right.
Qed.
Lemma cycle_share E l l' x : functional E -> cycle E l -> cycle E l' -> In x l -> In x l' -> rotation l l'.
Proof.
  intros F C C' I I'. apply in_split in I as (a & b & ->). apply in_split in I' as (a' & b' & ->).
  assert (R : rotation (a ++ x :: b) ((x :: b) ++ a)) by (exists a, (x :: b); auto).
  assert (R' : rotation (a' ++ x :: b') ((x :: b') ++ a')) by (exists a', (x :: b'); auto).
  pose proof (rotation_cycle _ _ _ R C) as (N & y & m & Q & P). pose proof (rotation_cycle _ _ _ R' C') as (N' & y' & m' & Q' & P').
  cbn [app] in *. injection Q as <- <-. injection Q' as <- <-. inversion N; subst. inversion N'; subst.
  assert (b ++ a = b' ++ a') as Q by (apply (path_det E F _ x _ x); auto).
  eapply rotation_trans; [exact R|]. rewrite Q. apply rotation_sym, R'.
Qed.

Lemma match_up (K2 : list (list nat)) : forall K1,
  (forall l, In l K1 -> exists l', In l' K2 /\ rotation l l') -> (forall l', In l' K2 -> exists l, In l K1 /\ rotation l l') ->
  ForallOrdPairs (fun a b => ~ rotation a b) K1 -> ForallOrdPairs (fun a b => ~ rotation a b) K2 ->
  exists K, Permutation K1 K /\ Forall2 rotation K K2.
Proof.
  induction K2 as [|k K2 IH]; intros K1 A B D1 D2.
  - destruct K1 as [|l K1]; [exists []; auto|]. destruct (A l (or_introl eq_refl)) as (x & [] & _).
  - destruct (B k (or_introl eq_refl)) as (l & I & R). apply in_split in I as (a & b & ->).
    inversion D2 as [|? ? D3 D4]; subst. rewrite Forall_forall in D3.
    assert (DP : forall x, In x (a ++ b) -> ~ rotation x l).
    { intros x Hx Rx. clear - D1 Hx Rx. induction a as [|y a IHa]; cbn [app] in D1, Hx.
      - inversion D1 as [|? ? D3 D4]; subst. rewrite Forall_forall in D3. apply (D3 x Hx), rotation_sym, Rx.
      - inversion D1 as [|? ? D3 D4]; subst. rewrite Forall_forall in D3. destruct Hx as [<-|Hx]; [|auto].
        apply (D3 l); [apply in_or_app; right; now left|exact Rx]. }
    destruct (IH (a ++ b)) as (K & P & F2); auto.
    + intros x Hx. destruct (A x) as (y & [<-|Iy] & Ry); [apply in_app_iff in Hx as [Hx|Hx]; apply in_or_app; [auto|right; now right]| |eauto].
      destruct (DP x Hx). eapply rotation_trans; [exact Ry|]. apply rotation_sym, R.
    + intros y Iy. destruct (B y (or_intror Iy)) as (x & Ix & Rx).
      apply in_app_iff in Ix as [Ix|[<-|Ix]]; [exists x; split; [apply in_or_app; auto|auto]| |exists x; split; [apply in_or_app; auto|auto]].
      destruct (D3 y Iy). eapply rotation_trans; [apply rotation_sym, R|exact Rx].
    + clear - D1. induction a as [|y a IHa]; cbn [app] in *; inversion D1 as [|? ? D3 D4]; subst; auto.
      constructor; auto. apply Forall_forall. intros z Hz. rewrite Forall_forall in D3. apply D3.
      apply in_app_iff in Hz as [Hz|Hz]; apply in_or_app; [auto|right; now right].
    + exists (l :: K). split; [|constructor; auto]. transitivity (l :: a ++ b); [symmetry; apply Permutation_middle|]. now apply perm_skip.
Qed.
Definition same_loops (K1 K2 : list (list nat)) : Prop := exists K, Permutation K1 K /\ Forall2 rotation K K2.
Lemma ordpairs_nth {A} (R : A -> A -> Prop) l : (forall i j a b, i < j -> nth_error l i = Some a -> nth_error l j = Some b -> R a b) ->
  ForallOrdPairs R l.
Proof.
  induction l as [|x l IH]; intros H; constructor.
  - apply Forall_forall. intros y Iy. apply In_nth_error in Iy as (j & Gj). apply (H 0 (Datatypes.S j)); auto. lia.
  - apply IH. intros i j a b Hij Gi Gj. apply (H (Datatypes.S i) (Datatypes.S j)); auto. lia.
Qed.
(** any two cycles with a common node are the same cycle *)
Definition separate_cycles (E : list (nat * nat)) : Prop :=
  forall l l' x, cycle E l -> cycle E l' -> In x l -> In x l' -> rotation l l'.
Lemma functional_separate E : functional E -> separate_cycles E.
Proof. intros F l l' x. apply cycle_share, F. Qed.
(** edges whose head has no outgoing edge lie on no cycle *)
Definition prune (E : list (nat * nat)) : list (nat * nat) := filter (fun e => existsb (fun e' => fst e' =? snd e) E) E.
Lemma cycle_prune E l : cycle E l -> cycle (prune E) l.
Proof.
  intros (N & x & l' & Q & P). split; [exact N|]. exists x, l'. split; [exact Q|].
  intros u v Cs. unfold prune. apply filter_In. split; [apply P, Cs|]. apply existsb_exists. cbn [snd].
  assert (Iv : In v l).
  { destruct Cs as (a & b & Qs). assert (I : In v (l ++ [x])) by (rewrite Qs; apply in_or_app; right; right; now left).
    apply in_app_iff in I as [I|[<-|[]]]; [exact I|]. rewrite Q. now left. }
  apply in_split in Iv as (a & b & ->). destruct (b ++ [x]) as [|y c] eqn:B; [destruct b; discriminate|].
  exists (v, y). split; [|cbn; apply Nat.eqb_refl]. apply P. exists a, c. rewrite <- app_assoc. cbn [app]. rewrite B. reflexivity.
Qed.
Lemma prune_separate E : separate_cycles (prune E) -> separate_cycles E.
Proof. intros F l l' x C C'. apply F; apply cycle_prune; auto. Qed.

Lemma loops_order ord1 ord2 E : (forall l, Permutation (ord1 l) l) -> (forall l, Permutation (ord2 l) l) -> separate_cycles E ->
  exists K1 K2, get_closed_loops ord1 E = Some K1 /\ get_closed_loops ord2 E = Some K2 /\ same_loops K1 K2.
Proof.
  intros P1 P2 F. rewrite (loops_eq ord1 P1), (loops_eq ord2 P2). eexists _, _. split; [reflexivity|]. split; [reflexivity|].
  assert (X : forall oa ob, (forall l, Permutation (oa l) l) -> (forall l, Permutation (ob l) l) -> forall l,
     In l (keep_loops (found E (oa (keys (build_graph E))))) -> exists l', In l' (keep_loops (found E (ob (keys (build_graph E))))) /\ rotation l l').
  { intros oa ob Pa Pb l I. pose proof (keep_cycle oa E l I) as Cl. pose proof Cl as (_ & x & t & -> & _).
    destruct (node_reported ob Pb E _ Cl x (or_introl eq_refl)) as (l' & I' & Ix). exists l'. split; auto.
    apply (F _ _ x); auto; [exact (keep_cycle ob E l' I')|now left]. }
  apply match_up.
  - apply X; auto.
  - intros l' I. destruct (X ord2 ord1 P2 P1 l' I) as (l & Il & R). exists l. split; auto. apply rotation_sym, R.
  - apply ordpairs_nth. intros i j a b Hij Gi Gj R. apply (keep_distinct ord1 E i j a b Hij Gi Gj []). rewrite app_nil_r. exact R.
  - apply ordpairs_nth. intros i j a b Hij Gi Gj R. apply (keep_distinct ord2 E i j a b Hij Gi Gj []). rewrite app_nil_r. exact R.
Qed.

(** ** Analysis *)
Lemma rotation_in l l' x : rotation l l' -> In x l <-> In x l'.
Proof. intros (a & b & -> & ->). rewrite !in_app_iff. tauto. Qed.
Lemma rotation_length l l' : rotation l l' -> length l = length l'.
Proof. intros (a & b & -> & ->). rewrite !app_length. lia. Qed.
Lemma delta_rotation E l l' : rotation l l' -> delta_S E l = delta_S E l'.
Proof.
  intros R. unfold delta_S. apply filter_ext. intros i.
  assert (X : forall u, mem u l = mem u l').
  { intros u. pose proof (rotation_in l l' u R) as Y. destruct (mem u l) eqn:A, (mem u l') eqn:B; auto.
    - apply mem_in in A. apply Y, mem_in in A. congruence.
    - apply mem_in in B. apply Y, mem_in in B. congruence. }
  rewrite !X. reflexivity.
Qed.

(** two analyses with the same content *)
Record same_an (a1 a2 : tsp_an) : Prop := {
  so_deltas : Permutation (a_deltas a1) (a_deltas a2);
  so_nodup : NoDup (a_deltas a1);
  so_flag : a_tour_flag a1 = a_tour_flag a2;
  so_sat : a_satisfied a1 = a_satisfied a2;
  so_nocons : a_nocons a1 = a_nocons a2;
  so_nocons_flag : a_nocons_flag a1 = a_nocons_flag a2;
  so_loops : same_loops (a_paths a1) (a_paths a2);
  so_sizes : Permutation (a_sizes a1) (a_sizes a2);
  so_tour : a_tour_flag a1 = true -> exists h1 h2, a_tour a1 = h1 ++ [hd 0 h1] /\ a_tour a2 = h2 ++ [hd 0 h2] /\ rotation h1 h2 }.

Lemma same_loops_length K1 K2 : same_loops K1 K2 -> length K1 = length K2.
Proof. intros (K & P & F). rewrite (Permutation_length P). clear P. induction F; cbn; auto. Qed.
Lemma same_loops_in K1 K2 l : same_loops K1 K2 -> In l K1 -> exists l', In l' K2 /\ rotation l l'.
Proof.
  intros (K & P & F) I. apply (Permutation_in _ P) in I. clear P. induction F as [|a b K K2 R F IH]; [destruct I|].
  destruct I as [<-|I]; [exists b; split; [now left|auto]|]. destruct (IH I) as (l' & I' & R'). exists l'. split; [now right|auto].
Qed.
Lemma same_loops_in_r K1 K2 l : same_loops K1 K2 -> In l K2 -> exists l', In l' K1 /\ rotation l' l.
Proof.
  intros (K & P & F) I. cut (exists l', In l' K /\ rotation l' l).
  { intros (l' & I' & R). exists l'. split; auto. apply (Permutation_in _ (Permutation_sym P)), I'. }
  clear P. induction F as [|a b K K2 R F IH]; [destruct I|].
  destruct I as [<-|I]; [exists a; split; [now left|auto]|]. destruct (IH I) as (l' & I' & R'). exists l'. split; [now right|auto].
Qed.
Lemma same_loops_single K1 K2 h : same_loops K1 K2 -> K1 = [h] -> exists h', K2 = [h'] /\ rotation h h'.
Proof.
  intros (K & P & F) ->. apply Permutation_length_1_inv in P. subst K. inversion F as [|? b ? K' R F']; subst. inversion F'; subst. eauto.
Qed.
Lemma same_loops_single_r K1 K2 h : same_loops K1 K2 -> K2 = [h] -> exists h', K1 = [h'] /\ rotation h' h.
Proof.
  intros (K & P & F) ->. inversion F as [|a ? K' ? R F']; subst. inversion F'; subst.
  apply Permutation_sym, Permutation_length_1_inv in P. subst K1. eauto.
Qed.
Lemma same_loops_sizes K1 K2 : same_loops K1 K2 -> Permutation (map (@length nat) K1) (map (@length nat) K2).
Proof.
  intros (K & P & F). transitivity (map (@length nat) K); [apply Permutation_map, P|].
  replace (map (@length nat) K2) with (map (@length nat) K); [apply Permutation_refl|].
  clear P. induction F as [|a b ? ? R F IH]; [reflexivity|]. cbn. rewrite (rotation_length _ _ R). f_equal; auto.
Qed.
Lemma add_all_order E K1 K2 d1 d2 : same_loops K1 K2 -> Permutation d1 d2 -> NoDup d1 ->
  Permutation (add_all E K1 d1) (add_all E K2 d2) /\ NoDup (add_all E K1 d1).
Proof.
  intros S P N. destruct (add_all_spec E K1 d1) as (_ & A1 & B1). destruct (add_all_spec E K2 d2) as (_ & A2 & B2).
  split; [|auto]. apply NoDup_Permutation; [auto|apply B2, (Permutation_NoDup P N)|].
  intros x. rewrite A1, A2. assert (X : In x d1 <-> In x d2) by (split; apply Permutation_in; auto using Permutation_sym).
  rewrite X. split; (intros [H|(Nx & l & I & ->)]; [auto|right; split; [exact Nx|]]).
  - destruct (same_loops_in _ _ _ S I) as (l' & I' & R). exists l'. split; auto. apply delta_rotation, R.
  - destruct (same_loops_in_r _ _ _ S I) as (l' & I' & R). exists l'. split; auto. symmetry. apply delta_rotation, R.
Qed.

Definition with_ord (p : tsp_params) (ord : list nat -> list nat) : tsp_params :=
  {| p_n := p_n p; p_e := p_e p; p_iters := p_iters p; p_aug := p_aug p; p_reset := p_reset p; p_filt := p_filt p;
     p_alpha := p_alpha p; p_thr := p_thr p; p_max_count := p_max_count p; p_in := p_in p; p_ord := ord |}.

(** both orders report the same loops, up to their order and starting points *)
Definition order_free (ord1 ord2 : list nat -> list nat) (sel : list (nat * nat)) : Prop :=
  exists K1 K2, get_closed_loops ord1 sel = Some K1 /\ get_closed_loops ord2 sel = Some K2 /\ same_loops K1 K2.
Lemma analyse_order p ord1 ord2 sel a1 a2 a1' a2' : order_free ord1 ord2 sel ->
  same_an a1 a2 -> a_tour_flag a1 = false ->
  analyse (with_ord p ord1) sel a1 = Some a1' -> analyse (with_ord p ord2) sel a2 = Some a2' -> same_an a1' a2'.
Proof.
  intros F SA Tf A1 A2. destruct (analyse_inv _ _ _ _ A1) as (K1 & G1 & L1 & R1).
  destruct (analyse_inv _ _ _ _ A2) as (K2 & G2 & L2 & R2). cbn [with_ord p_ord] in G1, G2.
  destruct F as (K1' & K2' & H1 & H2 & SL).
  rewrite G1 in H1. injection H1 as <-. rewrite G2 in H2. injection H2 as <-. rewrite <- L1, <- L2 in SL.
  pose proof (same_loops_length _ _ SL) as Ln. destruct SA as [S1 S2 S3 S4 S5 S6 S7 S8 S9].
  rewrite L1, L2 in *.
  destruct R1 as [N1 D1 T1 F1 Q1 Z1 C1 E1 | h N1 Ln1 D1 T1 F1 Q1 Z1 C1 E1 | N1 M1 D1 T1 F1 Q1 Z1 C1 E1];
  destruct R2 as [N2 D2 T2 F2 Q2 Z2 C2 E2 | h2 N2 Ln2 D2 T2 F2 Q2 Z2 C2 E2 | N2 M2 D2 T2 F2 Q2 Z2 C2 E2].
  all: try (exfalso; destruct K1 as [|? [|? ?]], K2 as [|? [|? ?]]; cbn in *; congruence).
  - constructor; rewrite ?D1, ?D2, ?F1, ?F2, ?Q1, ?Q2, ?Z1, ?Z2, ?C1, ?C2, ?E1, ?E2, ?L1, ?L2; auto.
    + rewrite S6, S5. reflexivity.
    + congruence.
  - constructor; rewrite ?D1, ?D2, ?F1, ?F2, ?Q1, ?Q2, ?Z1, ?Z2, ?C1, ?C2, ?E1, ?E2, ?L1, ?L2; auto.
    intros _. destruct (same_loops_single _ _ h SL N1) as (h' & Y & R). rewrite N2 in Y. injection Y as <-.
    destruct T1 as (x & X1 & X2). destruct T2 as (y & Y1 & Y2). exists h, h2. rewrite X2, Y2.
    split; [|split; [|exact R]]; [destruct h|destruct h2]; cbn in *; congruence.
  - exfalso. destruct (same_loops_single _ _ h SL N1) as (h' & Y & R). apply (M2 h' Y). rewrite <- (rotation_length _ _ R). exact Ln1.
  - exfalso. destruct (same_loops_single_r _ _ h2 SL N2) as (h' & Y & R). apply (M1 h' Y). rewrite (rotation_length _ _ R). exact Ln2.
  - destruct (add_all_order (tsp_edges (p_in p)) K1 K2 _ _ SL S1 S2) as (Y1 & Y2).
    constructor; rewrite ?D1, ?D2, ?F1, ?F2, ?Q1, ?Q2, ?Z1, ?Z2, ?C1, ?C2, ?E1, ?E2, ?L1, ?L2; auto.
    + apply same_loops_sizes, SL.
    + congruence.
Qed.

(** ** One phase of message passing over the same constraints in another order *)
Lemma perm_index (d1 d2 : list (list nat)) : Permutation d1 d2 -> exists f,
  (forall s, s < length d2 -> f s < length d1) /\ (forall s, nth_error d2 s = nth_error d1 (f s)) /\
  Permutation (map f (seq 0 (length d2))) (seq 0 (length d1)).
Proof.
  intros P. apply Permutation_nth_error in P as (L & f & I & H). exists f.
  assert (B : forall s, s < length d2 -> f s < length d1) by (intros s Hs; apply nth_error_Some; rewrite <- H; apply nth_error_Some; auto).
  split; [exact B|]. split; [exact H|]. rewrite L.
  apply NoDup_Permutation_bis.
  - apply FinFun.Injective_map_NoDup; [exact I|apply seq_NoDup].
  - rewrite map_length, !seq_length. lia.
  - intros x Hx. apply in_map_iff in Hx as (y & <- & Hy). apply in_seq in Hy. apply in_seq. specialize (B y). lia.
Qed.
Lemma qc_cancel (a x y : Qc) : (a + x = a + y)%Qc -> x = y.
Proof. intros H. replace x with ((a + x) - a)%Qc by ring. rewrite H. ring. Qed.
Lemma qsum_others (g : nat -> Qc) s l : NoDup l -> In s l -> qsum (map g l) = (g s + qsum (map g (others s l)))%Qc.
Proof.
  induction l as [|x l IH]; intros N I; [destruct I|]. destruct I as [->|I]; inversion N; subst; cbn [map].
  - cbn [others filter]. rewrite Nat.eqb_refl. cbn [negb]. fold (others s l). rewrite others_notin, qsum_cons by auto. reflexivity.
  - cbn [others filter]. fold (others s l). destruct (Nat.eqb_spec x s) as [->|]; [contradiction|]. cbn [negb map].
    rewrite !qsum_cons, IH by auto. ring.
Qed.

Definition ends_eq (E : list (nat * nat)) (A B : list (list Qc)) : Prop :=
  forall i u v, nth_error E i = Some (u, v) -> qat A i u = qat B i u /\ qat A i v = qat B i v.
Definition row_rel (e : nat) (d1 d2 : list (list nat)) (B1 B2 : list (list Qc)) : Prop :=
  forall s1 s2 dl i, nth_error d1 s1 = Some dl -> nth_error d2 s2 = Some dl -> i < e -> qat B1 s1 i = qat B2 s2 i.

Section Phase.
Variable p : tsp_params.
Let n := p_n p.
Let e := p_e p.
Let E := tsp_edges (p_in p).
Variables (al : Qc) (cost : list Qc) (C : list (list Qc)).
Hypothesis Hn : 3 <= n.
Hypothesis HE : complete n E.
Hypothesis He : length E = e.

Lemma deg_ends V1 V2 D1 D2 : ends_eq E V1 V2 -> deg_eq n E V1 D1 -> deg_eq n E V2 D2 -> ends_eq E D1 D2.
Proof.
  intros Q A B i u v G.
  assert (Huv : u < n /\ v < n /\ u <> v) by (apply (proj2 HE); exact (nth_error_In _ _ G)).
  destruct (A u) as (A1 & _); [tauto|]. destruct (A v) as (_ & A2); [tauto|].
  destruct (B u) as (B1 & _); [tauto|]. destruct (B v) as (_ & B2); [tauto|]. split.
  - assert (I : In i (from_node E u)) by (apply (in_from n E Hn); exists v; exact G).
    apply In_nth_error in I as (pos & I). specialize (A1 pos i I). specialize (B1 pos i I).
    replace (map (fun i => qat V2 i u) (from_node E u)) with (map (fun i => qat V1 i u) (from_node E u)) in B1.
    2:{ apply map_ext_in. intros j Ij. apply (in_from n E Hn) in Ij as (w & Gj). apply (Q j u w Gj). }
    pose proof (minsum_message_unique _ _ _ _ _ A1 B1) as X. injection X; auto.
  - assert (I : In i (into_node E v)) by (apply (in_into n E Hn); exists u; exact G).
    apply In_nth_error in I as (pos & I). specialize (A2 pos i I). specialize (B2 pos i I).
    replace (map (fun i => qat V2 i v) (into_node E v)) with (map (fun i => qat V1 i v) (into_node E v)) in B2.
    2:{ apply map_ext_in. intros j Ij. apply (in_into n E Hn) in Ij as (w & Gj). apply (Q j w v Gj). }
    pose proof (minsum_message_unique _ _ _ _ _ A2 B2) as X. injection X; auto.
Qed.
Lemma filtered_ext flag a d d' t : (forall r, r <= t -> d r = d' r) -> filtered flag a d t = filtered flag a d' t.
Proof.
  intros H. unfold filtered. destruct (_ && _); [|apply H; lia]. f_equal. apply map_ext_in. intros r I. apply in_seq in I.
  rewrite H by lia. reflexivity.
Qed.

Variables d1 d2 : list (list nat).
Hypothesis P : Permutation d1 d2.
Hypothesis Gd : Forall (good_delta E) d1.

Lemma row_sumcol B1 B2 i : row_rel e d1 d2 B1 B2 -> i < e -> sumcol B1 (length d1) i = sumcol B2 (length d2) i.
Proof.
  intros R Hi. destruct (perm_index d1 d2 P) as (f & F1 & F2 & F3). unfold sumcol.
  rewrite <- (qsum_perm _ _ (Permutation_map (fun s => qat B1 s i) F3)), map_map. f_equal. apply map_ext_in.
  intros s I. apply in_seq in I. destruct (nth_error d2 s) as [dl|] eqn:G; [|apply nth_error_None in G; lia].
  apply (R (f s) s dl i); auto. rewrite <- F2. exact G.
Qed.
Lemma row_others B1 B2 s1 s2 dl i : row_rel e d1 d2 B1 B2 -> i < e -> nth_error d1 s1 = Some dl -> nth_error d2 s2 = Some dl ->
  qsum (map (fun s => qat B1 s i) (others s1 (seq 0 (length d1)))) = qsum (map (fun s => qat B2 s i) (others s2 (seq 0 (length d2)))).
Proof.
  intros R Hi G1 G2. pose proof (row_sumcol B1 B2 i R Hi) as X. unfold sumcol in X.
  assert (I1 : In s1 (seq 0 (length d1))) by (apply in_seq; split; [lia|]; apply nth_error_Some; congruence).
  assert (I2 : In s2 (seq 0 (length d2))) by (apply in_seq; split; [lia|]; apply nth_error_Some; congruence).
  rewrite (qsum_others _ s1 (seq 0 (length d1))), (qsum_others _ s2 (seq 0 (length d2))) in X by (auto using seq_NoDup).
  rewrite (R s1 s2 dl i G1 G2 Hi) in X.
  exact (qc_cancel _ _ _ X).
Qed.

Lemma phases_same V1 Dg1 M1 B1 ES1 SD1 V2 Dg2 M2 B2 ES2 SD2 :
  round_phase p al cost C d1 V1 Dg1 M1 B1 ES1 SD1 -> round_phase p al cost C d2 V2 Dg2 M2 B2 ES2 SD2 ->
  ends_eq E (V1 0) (V2 0) -> row_rel e d1 d2 (B1 0) (B2 0) ->
  forall t, ends_eq E (V1 t) (V2 t) /\ row_rel e d1 d2 (B1 t) (B2 t) /\ ends_eq E (M1 t) (M2 t).
Proof.
  intros P1 P2 V0 B0.
  assert (RI : forall i u v, nth_error E i = Some (u, v) -> i < e /\ u < n /\ v < n).
  { intros i u v G. split; [rewrite <- He; apply nth_error_Some; congruence|].
    assert (Huv : u < n /\ v < n /\ u <> v) by (apply (proj2 HE); exact (nth_error_In _ _ G)). tauto. }
  assert (DM : forall t, (forall r, r <= t -> ends_eq E (V1 r) (V2 r)) -> ends_eq E (M1 t) (M2 t)).
  { intros t H i u v G. destruct (RI i u v G) as (Hi & Hu & Hv).
    destruct (P1 t) as (_ & X1 & _). destruct (P2 t) as (_ & X2 & _).
    split; rewrite X1, X2 by auto; apply filtered_ext; intros r Hr;
      destruct (P1 r) as (Y1 & _); destruct (P2 r) as (Y2 & _); apply (deg_ends _ _ _ _ (H r Hr) Y1 Y2 i u v G). }
  assert (SDR : forall t, ends_eq E (M1 t) (M2 t) -> row_rel e d1 d2 (B1 t) (B2 t) -> row_rel e d1 d2 (SD1 t) (SD2 t)).
  { intros t HM HB s1 s2 dl i G1 G2 Hi. destruct (P1 t) as (_ & _ & X1 & X2 & _ & _ & X3). destruct (P2 t) as (_ & _ & Y1 & Y2 & _ & _ & Y3).
    destruct (in_dec Nat.eq_dec i dl) as [I|NI]; [|rewrite (X3 s1 dl i), (Y3 s2 dl i) by auto; reflexivity].
    apply In_nth_error in I as (pos & I). specialize (X2 s1 dl pos i G1 I). specialize (Y2 s2 dl pos i G2 I).
    replace (map (fun i => qat (ES2 t) s2 i) dl) with (map (fun i => qat (ES1 t) s1 i) dl) in Y2.
    2:{ apply map_ext_in. intros j Ij. rewrite Forall_forall in Gd. destruct (Gd dl (nth_error_In _ _ G1)) as (_ & _ & LJ).
      rewrite Forall_forall in LJ. specialize (LJ j Ij). destruct (nth_error E j) as [(u, v)|] eqn:Gj; [|apply nth_error_None in Gj; lia].
      rewrite (X1 s1 dl j u v G1 Ij Gj), (Y1 s2 dl j u v G2 Ij Gj). destruct (HM j u v Gj) as [-> ->].
      rewrite (row_others _ _ s1 s2 dl j HB); auto. lia. }
    pose proof (minsum_message_unique _ _ _ _ _ X2 Y2) as X. injection X; auto. }
  assert (ALL : forall t r, r <= t -> ends_eq E (V1 r) (V2 r) /\ row_rel e d1 d2 (B1 r) (B2 r) /\ ends_eq E (M1 r) (M2 r)).
  { induction t as [|t IH]; intros r Hr.
    - assert (r = 0) as -> by lia. split; [exact V0|]. split; [exact B0|]. apply DM. intros q Hq. assert (q = 0) as -> by lia. exact V0.
    - destruct (Nat.le_gt_cases r t) as [L|L]; [auto|]. assert (r = t + 1) as -> by lia.
      destruct (IH t (le_n t)) as (_ & _ & HMt).
      assert (HB : row_rel e d1 d2 (B1 (t + 1)) (B2 (t + 1))).
      { intros s1 s2 dl i G1 G2 Hi. destruct (P1 t) as (_ & _ & _ & _ & X1 & _). destruct (P2 t) as (_ & _ & _ & _ & Y1 & _).
        rewrite X1, Y1 by (auto; apply nth_error_Some; congruence). apply filtered_ext. intros q Hq.
        destruct (IH q Hq) as (_ & K2 & K3). apply (SDR q K3 K2 s1 s2 dl); auto. }
      assert (HV : ends_eq E (V1 (t + 1)) (V2 (t + 1))).
      { intros i u v G. destruct (RI i u v G) as (Hi & _). destruct (P1 t) as (_ & _ & _ & _ & _ & X1 & _). destruct (P2 t) as (_ & _ & _ & _ & _ & Y1 & _).
        destruct (X1 i u v G) as [-> ->]. destruct (Y1 i u v G) as [-> ->]. destruct (HMt i u v G) as [-> ->].
        rewrite (row_sumcol _ _ i HB Hi). auto. }
      split; [exact HV|]. split; [exact HB|]. apply DM. intros q Hq. destruct (Nat.le_gt_cases q t) as [Lq|Lq]; [apply (IH q Lq)|].
      assert (q = t + 1) as -> by lia. exact HV. }
  intros t. apply (ALL t t (le_n t)).
Qed.
End Phase.

(** ** A stage without iterations *)
Lemma map_Fin_inj : forall a b : list Qc, map Fin a = map Fin b -> a = b.
Proof. induction a as [|x a IH]; intros [|y b] H; try discriminate H; auto. injection H as -> H. f_equal; auto. Qed.
Lemma idle_round p st st' : p_iters p = 0 -> iterate_augmented p (grow p st) = Some (Returned st') ->
  m_deg (t_msgs st') = m_deg (t_msgs st) /\
  extrinsic_augmented (m_deg (t_msgs st')) (m_sub (t_msgs st')) (r_extr (t_sol st)) = Some (r_extr (t_sol st')).
Proof.
  intros Z R. destruct (grow_fields p st) as (G1 & G2 & G3).
  assert (Gm : m_deg (t_msgs (grow p st)) = m_deg (t_msgs st)) by (unfold grow; destruct (_ =? _); reflexivity).
  unfold iterate_augmented in R. rewrite Z in R. cbv zeta in R.
  match type of R with context [if p_reset p then ?A else ?B] => destruct (if p_reset p then A else B) as [e2d|] end;
    cbn [bind] in R; [|discriminate R].
  match type of R with context [for_up 0 0 ?m ?f] => change (for_up 0 0 m f) with (Some m) in R end.
  cbn [bind m_e2d m_deg m_sub] in R.
  match type of R with context [existsb ?f ?l] => destruct (existsb f l) end; [discriminate R|].
  match type of R with context [extrinsic_augmented ?a ?b ?c] => destruct (extrinsic_augmented a b c) as [x|] eqn:X end;
    cbn [bind] in R; [|discriminate R].
  destruct (intrinsic_output _ _ _) as [y|]; cbn [bind] in R; [|discriminate R].
  destruct (select_edges _ _ _) as [sel|]; cbn [bind] in R; [|discriminate R].
  destruct (selection_cost _ _) as [cst|]; cbn [bind] in R; [|discriminate R].
  destruct (analyse p _ _) as [a|]; cbn [bind] in R; [|discriminate R]. injection R as <-. cbn.
  split; [exact Gm|]. rewrite <- X. f_equal. unfold grow. destruct (_ =? _); reflexivity.
Qed.

(** ** Whole runs *)
Section Runs.
Variable p : tsp_params.
Variables ord1 ord2 : list nat -> list nat.
Let p1 := with_ord p ord1.
Let p2 := with_ord p ord2.
Let n := p_n p.
Let e := p_e p.
Let E := tsp_edges (p_in p).
Variables (al : Qc) (cost : list Qc) (C CM V0 : list (list Qc)).
Hypothesis Hn : 3 <= n.
Hypothesis HE : complete n E.
Hypothesis He : length E = e.
Hypothesis Hal : p_alpha p = Fin al.
Hypothesis Hcost : tsp_cost_edge (p_in p) = map Fin cost.
Hypothesis Lcost : length cost = e.
Hypothesis HC : tsp_degree_cost (p_in p) = inj C.
Hypothesis SC : shape e n C.
Hypothesis HCM : tsp_cost_matrix (p_in p) = inj CM.
Hypothesis SCM : shape n n CM.
Hypothesis HV0 : tsp_edge2degree (p_in p) = inj V0.
Hypothesis SV0 : shape e n V0.
Hypothesis Po1 : forall l, Permutation (ord1 l) l.
Hypothesis Po2 : forall l, Permutation (ord2 l) l.

Record same_run (st1 st2 : tsp_state) : Prop := {
  sr_sol : t_sol st1 = t_sol st2;
  sr_cnt : t_cnt st1 = t_cnt st2;
  sr_msgs : length (m_sub (t_msgs st1)) = length (m_sub (t_msgs st2));
  sr_an : same_an (t_an st1) (t_an st2) }.
Definition rel (st1 st2 : tsp_state) : Prop :=
  same_run st1 st2 /\ kept p st1 /\ kept p st2 /\
  length (m_sub (t_msgs st1)) <= length (a_deltas (t_an st1)) /\
  (p_iters p = 0 -> m_deg (t_msgs st1) = m_deg (t_msgs st2)) /\
  ends_eq E (unm (m_e2d (t_msgs st1))) (unm (m_e2d (t_msgs st2))) /\
  row_rel e (a_deltas (t_an st1)) (a_deltas (t_an st2)) (unm (m_sub (t_msgs st1))) (unm (m_sub (t_msgs st2))).

Lemma sol_eq (s1 s2 : tsp_sol) : r_extr s1 = r_extr s2 -> r_intr s1 = r_intr s2 -> decided p s1 -> decided p s2 -> s1 = s2.
Proof.
  destruct s1, s2; cbn. intros -> -> (A1 & A2) (B1 & B2). cbn in *. congruence.
Qed.

Lemma first_stage st1 : iterate_relaxed p1 (tsp_init p1) = Some st1 -> order_free ord1 ord2 (r_selected (t_sol st1)) ->
  exists st2, iterate_relaxed p2 (tsp_init p2) = Some st2 /\ rel st1 st2.
Proof.
  intros R F.
  destruct (relaxed_fin p2 Hn HE He (ex_intro _ al Hal) (ex_intro _ cost (conj Lcost Hcost))
     (ex_intro _ C (conj SC HC)) (ex_intro _ V0 (conj SV0 HV0)) Po2) as (st2 & R2 & _).
  exists st2. split; [exact R2|].
  pose proof (history_kept p1 al cost C CM V0 Hn HE He Hal Hcost Lcost HC SC HCM SCM HV0 SV0 Po1 st1 [] (h_relaxed _ _ R)) as K1.
  pose proof (history_kept p2 al cost C CM V0 Hn HE He Hal Hcost Lcost HC SC HCM SCM HV0 SV0 Po2 st2 [] (h_relaxed _ _ R2)) as K2.
  pose proof (relaxed_sub _ _ R) as S1. pose proof (relaxed_sub _ _ R2) as S2.
  destruct (relaxed_inv _ _ _ R) as (D1 & A1 & N1 & _). destruct (relaxed_inv _ _ _ R2) as (D2 & A2 & N2 & _).
  assert (X : t_sol st1 = t_sol st2 /\ m_e2d (t_msgs st1) = m_e2d (t_msgs st2) /\ m_deg (t_msgs st1) = m_deg (t_msgs st2)).
  { clear - R R2. unfold iterate_relaxed in R, R2.
    change (tsp_init p1) with (tsp_init p) in R. change (tsp_init p2) with (tsp_init p) in R2.
    change (relaxed_step p1) with (relaxed_step p) in R. change (relaxed_step p2) with (relaxed_step p) in R2.
    cbn [p1 p2 with_ord p_iters p_in p_thr p_e] in R, R2.
    destruct (for_up _ _ _ _) as [m|]; cbn [bind] in R, R2; [|discriminate].
    destruct (extrinsic_relaxed _ _) as [x|]; cbn [bind] in R, R2; [|discriminate].
    destruct (intrinsic_output _ _ _) as [y|]; cbn [bind] in R, R2; [|discriminate].
    destruct (select_edges _ _ _) as [sel|]; cbn [bind] in R, R2; [|discriminate].
    destruct (selection_cost _ _) as [cst|]; cbn [bind] in R, R2; [|discriminate].
    destruct (analyse p1 _ _) as [a1|]; cbn [bind] in R; [|discriminate].
    destruct (analyse p2 _ _) as [a2|]; cbn [bind] in R2; [|discriminate]. injection R as <-. injection R2 as <-. auto. }
  destruct X as (X1 & X2 & X3).
  assert (SI : same_an (t_an (tsp_init p1)) (t_an (tsp_init p2))).
  { constructor; cbn; auto; try constructor. exists []; auto. discriminate. }
  rewrite <- X1 in A2.
  pose proof (analyse_order p ord1 ord2 _ _ _ _ _ F SI eq_refl A1 A2) as SA.
  split; [constructor; auto; [rewrite N1, N2; reflexivity|rewrite S1, S2; reflexivity]|].
  split; [exact K1|]. split; [exact K2|]. split; [rewrite S1; cbn; lia|]. split; [auto|]. split; [intros i u v _; rewrite X2; auto|].
  intros s1 s2 dl i _ _ _. rewrite S1, S2. rewrite !qat_default by (cbn; lia). reflexivity.
Qed.

Lemma next_stage st1 st2 st1' : rel st1 st2 -> a_tour_flag (t_an st1) = false ->
  iterate_augmented p1 (grow p1 st1) = Some (Returned st1') -> order_free ord1 ord2 (r_selected (t_sol st1')) ->
  exists st2', iterate_augmented p2 (grow p2 st2) = Some (Returned st2') /\ rel st1' st2'.
Proof.
  intros (SR & K1 & K2 & Lm & RD & RE & RR) Tf R F. destruct SR as [S1 S2 S3 S4].
  pose proof (so_deltas _ _ S4) as PD. pose proof (so_nodup _ _ S4) as ND.
  assert (G : forall pp st, pp = p1 \/ pp = p2 -> kept p st -> exists st', iterate_augmented pp (grow pp st) = Some (Returned st') /\
     length (m_sub (t_msgs st')) = length (a_deltas (t_an st)) /\ Forall (good_delta E) (a_deltas (t_an st)) ).
  { intros pp st Hpp ((S & Fs & Ls) & _).
    pose proof (grow_fin p Hn He S st Fs Ls) as G. replace (grow p) with (grow pp) in G by (destruct Hpp; subst; reflexivity).
    destruct (grow_fields pp st) as (_ & G2 & _). rewrite <- G2 in G |- *.
    assert (Z : exists st', iterate_augmented pp (grow pp st) = Some (Returned st') /\ fin_state p (length (a_deltas (t_an (grow pp st)))) st').
    { destruct Hpp as [-> | ->].
      - destruct (augmented_fin p1 Hn HE He (ex_intro _ al Hal) (ex_intro _ cost (conj Lcost Hcost)) (ex_intro _ CM (conj SCM HCM))
          (ex_intro _ C (conj SC HC)) Po1 _ G) as (st' & Q1 & Q2 & _). exists st'. split; [exact Q1|exact Q2].
      - destruct (augmented_fin p2 Hn HE He (ex_intro _ al Hal) (ex_intro _ cost (conj Lcost Hcost)) (ex_intro _ CM (conj SCM HCM))
          (ex_intro _ C (conj SC HC)) Po2 _ G) as (st' & Q1 & Q2 & _). exists st'. split; [exact Q1|exact Q2]. }
    destruct Z as (st' & Q1 & ((_ & _ & _ & _ & Q2 & _) & _)). exists st'. split; [exact Q1|]. split; [exact (finm_length _ _ _ Q2)|].
    destruct G as (_ & _ & _ & _ & G). exact G. }
  destruct (G p1 st1 (or_introl eq_refl) K1) as (x & Q1 & Q2 & Gd1). rewrite R in Q1. injection Q1 as <-.
  destruct (G p2 st2 (or_intror eq_refl) K2) as (st2' & R2 & Q4 & Gd2). clear G.
  exists st2'. split; [exact R2|].
  destruct (round_stage p1 al cost C CM Hn HE He Hal Hcost Lcost HC SC HCM SCM Po1 st1 st1' K1 R)
    as (K1' & Va & Dga & Ma & Ba & ESa & SDa & A1 & A2 & A3 & A4 & A5 & xa & ya & A6 & A7 & A8 & A9 & A10).
  destruct (round_stage p2 al cost C CM Hn HE He Hal Hcost Lcost HC SC HCM SCM Po2 st2 st2' K2 R2)
    as (K2' & Vb & Dgb & Mb & Bb & ESb & SDb & B1 & B2 & B3 & B4 & B5 & xb & yb & B6 & B7 & B8 & B9 & B10).
  change (p_reset p1) with (p_reset p) in A1. change (p_reset p2) with (p_reset p) in B1.
  change (tsp_edges (p_in p1)) with E in *. change (tsp_edges (p_in p2)) with E in *.
  change (p_iters p1) with (p_iters p) in *. change (p_iters p2) with (p_iters p) in *.
  change (p_e p1) with e in *. change (p_e p2) with e in *.
  assert (V0' : ends_eq E (Va 0) (Vb 0)).
  { intros i u v Gi. specialize (A1 i u v Gi). specialize (B1 i u v Gi). destruct (p_reset p).
    - destruct A1 as [-> ->]. destruct B1 as [-> ->]. auto.
    - destruct A1 as [-> ->]. destruct B1 as [-> ->]. apply (RE i u v Gi). }
  assert (B0' : row_rel e (a_deltas (t_an st1)) (a_deltas (t_an st2)) (Ba 0) (Bb 0)).
  { intros s1 s2 dl i G1 G2 Hi0. rewrite A2, B2. apply (RR s1 s2 dl); auto. }
  pose proof (phases_same p al cost C Hn HE He _ _ PD Gd1 _ _ _ _ _ _ _ _ _ _ _ _ A3 B3 V0' B0') as PH.
  destruct (PH (p_iters p)) as (E1 & E2 & _). destruct (PH (p_iters p - 1)) as (_ & _ & E3).
  destruct (augmented_inv _ _ _ R) as (D1 & AN1 & N1 & _). destruct (augmented_inv _ _ _ R2) as (D2 & AN2 & N2 & _).
  destruct (grow_fields p1 st1) as (G1 & G2 & G3). destruct (grow_fields p2 st2) as (G4 & G5 & G6).
  rewrite ?G1, ?G2, ?G3, ?G4, ?G5, ?G6 in *.
  assert (IDLE : forall st st' x, kept p st -> kept p st' -> length (m_sub (t_msgs st')) = length (a_deltas (t_an st)) ->
     r_extr (t_sol st') = map Fin x ->
     extrinsic_augmented (m_deg (t_msgs st')) (m_sub (t_msgs st')) (r_extr (t_sol st)) = Some (r_extr (t_sol st')) ->
     forall i, i < e -> nth i x 0%Qc = (qsum (nth i (unm (m_deg (t_msgs st'))) []) +
       sumcol (unm (m_sub (t_msgs st'))) (length (a_deltas (t_an st))) i)%Qc).
  { intros st st' x ((S & (_ & Fx & _) & _) & _) ((S' & ((_ & _ & _ & (Q & SQ & EQ) & (Q' & SQ' & EQ') & _) & _) & _) & _) Lq Ex X i Hie.
    destruct (extrinsic_augmented_ok e n _ Q Q' (r_extr (t_sol st)) SQ SQ') as (q & Eq & Lx & Hx); [exact (finv_length _ _ Fx)|].
    rewrite EQ, EQ', Eq, Ex in X. injection X as X. apply map_Fin_inj in X. subst q.
    rewrite Hx by auto. rewrite EQ, EQ', !unm_inj, <- Lq, EQ'. unfold inj. rewrite map_length, (proj1 SQ'). reflexivity. }
  assert (XX : xa = xb /\ ya = yb).
  { assert (Y : forall i, i < e -> nth i xa 0%Qc = nth i xb 0%Qc /\ nth i ya 0%Qc = nth i yb 0%Qc).
    { intros i Hie. destruct (nth_error E i) as [(u, v)|] eqn:Gi; [|apply nth_error_None in Gi; lia].
      destruct (A10 i u v Gi) as (X1 & X2). destruct (B10 i u v Gi) as (Y1 & Y2).
      destruct (Nat.eq_dec (p_iters p) 0) as [Hz|Hz].
      - rewrite X2, Y2. destruct (idle_round p1 st1 st1' Hz R) as (I1 & I2). destruct (idle_round p2 st2 st2' Hz R2) as (J1 & J2).
        rewrite (IDLE st1 st1' xa K1 K1' Q2 A6 I2 i Hie), (IDLE st2 st2' xb K2 K2' Q4 B6 J2 i Hie).
        rewrite I1, J1, (RD Hz), A5, B5, (row_sumcol p Hn He _ _ PD _ _ i E2 Hie). auto.
      - rewrite X2, Y2, X1, Y1 by lia. destruct (E3 i u v Gi) as [-> ->].
        rewrite (row_sumcol p Hn He _ _ PD _ _ i E2 Hie). auto. }
    split; apply (nth_ext _ _ 0%Qc 0%Qc); try congruence; intros i Hie; apply Y; congruence. }
  destruct XX as [-> ->].
  assert (SO : t_sol st1' = t_sol st2') by (apply sol_eq; [congruence|congruence|exact D1|exact D2]).
  rewrite <- SO in AN2. pose proof (analyse_order p ord1 ord2 _ _ _ _ _ F S4 Tf AN1 AN2) as SA.
  destruct (analyse_deltas _ _ _ _ AN1) as (new1 & W1). destruct (analyse_deltas _ _ _ _ AN2) as (new2 & W2).
  split.
  - constructor; auto; [|rewrite Q2, Q4; apply Permutation_length, PD].
    rewrite N1, N2, SO, S2. reflexivity.
  - split; [exact K1'|]. split; [exact K2'|]. split; [rewrite Q2, W1, app_length; lia|].
    split; [intros Hz; destruct (idle_round p1 st1 st1' Hz R) as (-> & _); destruct (idle_round p2 st2 st2' Hz R2) as (-> & _); auto|].
    rewrite A4, B4, A5, B5. split; [exact E1|].
    pose proof (so_nodup _ _ SA) as ND1. pose proof (Permutation_NoDup (so_deltas _ _ SA) ND1) as ND2.
    rewrite W1 in ND1. rewrite W2 in ND2. intros s1 s2 dl i H1 H2 Hie. rewrite W1 in H1. rewrite W2 in H2.
    assert (U : forall (a b : list (list nat)) s, NoDup (a ++ b) -> nth_error (a ++ b) s = Some dl -> In dl a -> s < length a).
    { intros a b s Nab Hs Ia. destruct (Nat.lt_ge_cases s (length a)) as [Ls|Ls]; auto. exfalso.
      rewrite nth_error_app2 in Hs by auto. apply nth_error_In in Hs. clear - Nab Hs Ia.
      induction a as [|y a IH]; [destruct Ia|]. inversion Nab; subst. destruct Ia as [<-|Ia]; [|auto].
      apply H1, in_or_app. auto. }
    assert (B_len : length (Ba (p_iters p)) = length (a_deltas (t_an st1)) /\ length (Bb (p_iters p)) = length (a_deltas (t_an st2))).
    { rewrite <- A5, <- B5. unfold unm. rewrite !map_length. auto. }
    destruct B_len as (L1 & L2).
    destruct (in_dec (list_eq_dec Nat.eq_dec) dl (a_deltas (t_an st1))) as [I|NI].
    + pose proof (U _ _ _ ND1 H1 I) as U1. pose proof (U _ _ _ ND2 H2 (Permutation_in _ PD I)) as U2.
      rewrite nth_error_app1 in H1, H2 by auto. apply (E2 s1 s2 dl); auto.
    + rewrite !qat_default; auto.
      * rewrite L2. destruct (Nat.lt_ge_cases s2 (length (a_deltas (t_an st2)))) as [Ls|Ls]; auto. exfalso. apply NI.
        rewrite nth_error_app1 in H2 by auto. apply (Permutation_in _ (Permutation_sym PD)), (nth_error_In _ _ H2).
      * rewrite L1. destruct (Nat.lt_ge_cases s1 (length (a_deltas (t_an st1)))) as [Ls|Ls]; auto. exfalso. apply NI.
        rewrite nth_error_app1 in H1 by auto. apply (nth_error_In _ _ H1).
Qed.

Lemma rel_grow st1 st2 : rel st1 st2 -> same_run (grow p1 st1) (grow p2 st2).
Proof.
  intros ([S1 S2 S3 S4] & _ & _ & Lm & _). destruct (grow_fields p1 st1) as (G1 & G2 & G3). destruct (grow_fields p2 st2) as (G4 & G5 & G6).
  constructor; rewrite ?G1, ?G2, ?G3, ?G4, ?G5, ?G6; auto.
  pose proof (Permutation_length (so_deltas _ _ S4)) as PL.
  unfold grow. rewrite <- S3, <- PL. destruct (_ =? _); [exact S3|]. cbn [set_msgs t_msgs extend_sub m_sub]. rewrite !app_length, S3. reflexivity.
Qed.
Definition same_outcome (o1 o2 : outcome) : Prop :=
  match o1, o2 with
  | Returned st1, Returned st2 | Running st1, Running st2 => same_run st1 st2
  | Exited, Exited => True
  | _, _ => False
  end.
Lemma loop_order max : forall fuel st1 l st2, history p1 (st1 :: l) -> rel st1 st2 ->
  (forall st l', history p1 (st :: l') -> length l' <= length l + fuel -> order_free ord1 ord2 (r_selected (t_sol st))) ->
  exists o1 o2, augmentation_loop fuel p1 max (grow p1 st1) = Some o1 /\ augmentation_loop fuel p2 max (grow p2 st2) = Some o2 /\
    same_outcome o1 o2.
Proof.
  induction fuel as [|fuel IH]; intros st1 l st2 H RL F; pose proof (rel_grow _ _ RL) as SG; cbn [augmentation_loop].
  all: pose proof RL as ([S1 S2 S3 S4] & _); destruct (grow_fields p1 st1) as (G1 & G2 & G3); destruct (grow_fields p2 st2) as (G4 & G5 & G6).
  all: rewrite G1, G2, G3, G4, G5, G6, <- (so_flag _ _ S4), <- (so_sat _ _ S4), <- (so_nocons_flag _ _ S4), <- S1, <- S2.
  all: change (p_aug p1) with (p_aug p); change (p_aug p2) with (p_aug p).
  all: destruct (a_satisfied (t_an st1)) eqn:C1; cbn [negb andb]; [eexists _, _; split; [reflexivity|]; split; [reflexivity|exact SG]|].
  all: destruct (p_aug p) eqn:C2; cbn [negb andb]; [|eexists _, _; split; [reflexivity|]; split; [reflexivity|exact SG]].
  all: destruct (a_tour_flag (t_an st1)) eqn:C3; cbn [negb]; [eexists _, _; split; [reflexivity|]; split; [reflexivity|exact SG]|].
  all: destruct (a_nocons_flag (t_an st1)) eqn:C4; cbn [orb]; [eexists _, _; split; [reflexivity|]; split; [reflexivity|exact SG]|].
  all: destruct (c_noimp_flag (t_cnt st1)) eqn:C5; cbn [orb]; [eexists _, _; split; [reflexivity|]; split; [reflexivity|exact SG]|].
  all: destruct (c_osc_flag (t_cnt st1)) eqn:C6; [eexists _, _; split; [reflexivity|]; split; [reflexivity|exact SG]|].
  all: destruct (neqb (r_cost (t_sol st1)) n0) eqn:C7; [eexists _, _; split; [reflexivity|]; split; [reflexivity|exact I]|].
  - eexists _, _; split; [reflexivity|]; split; [reflexivity|exact SG].
  - pose proof RL as (_ & K1 & _). destruct K1 as ((S & Fs & Ls) & _).
    pose proof (grow_fin p Hn He S st1 Fs Ls) as G. change (grow p) with (grow p1) in G. rewrite <- G2 in G.
    destruct (augmented_fin p1 Hn HE He (ex_intro _ al Hal) (ex_intro _ cost (conj Lcost Hcost)) (ex_intro _ CM (conj SCM HCM))
          (ex_intro _ C (conj SC HC)) Po1 _ G) as (st1' & R1 & _).
    assert (H1 : history p1 (st1' :: st1 :: l)) by (constructor; [exact H|repeat split; assumption|exact R1]).
    destruct (next_stage st1 st2 st1' RL C3 R1) as (st2' & R2 & RL'); [apply (F _ _ H1); cbn [length]; lia|].
    rewrite R1, R2; cbn [bind]. pose proof RL' as (SR' & _). rewrite <- (sr_cnt _ _ SR').
    destruct (_ =? max)%Z; [eexists _, _; split; [reflexivity|]; split; [reflexivity|exact SR']|].
    apply (IH st1' (st1 :: l) st2' H1 RL').
    intros st l' Hh Hl. apply (F st l' Hh). cbn [length] in Hl. lia.
Qed.
Lemma solve_order fuel max :
  (forall st l, history p1 (st :: l) -> length l <= fuel -> order_free ord1 ord2 (r_selected (t_sol st))) ->
  exists o1 o2, tsp_solve fuel p1 max = Some o1 /\ tsp_solve fuel p2 max = Some o2 /\ same_outcome o1 o2.
Proof.
  intros F.
  destruct (relaxed_fin p1 Hn HE He (ex_intro _ al Hal) (ex_intro _ cost (conj Lcost Hcost))
     (ex_intro _ C (conj SC HC)) (ex_intro _ V0 (conj SV0 HV0)) Po1) as (st1 & R1 & _).
  pose proof (h_relaxed _ _ R1) as H1.
  destruct (first_stage st1 R1) as (st2 & R2 & RL); [apply (F _ _ H1); cbn; lia|].
  unfold tsp_solve. rewrite R1, R2; cbn [bind]. pose proof RL as (SR & _).
  rewrite <- (so_sat _ _ (sr_an _ _ SR)). change (p_aug p1) with (p_aug p). change (p_aug p2) with (p_aug p).
  destruct (negb _ && _); [|eexists _, _; split; [reflexivity|]; split; [reflexivity|exact SR]].
  rewrite !perform_grow by (exact (relaxed_sub _ _ R1) || exact (relaxed_sub _ _ R2)).
  apply (loop_order max fuel st1 [] st2 H1 RL). exact F.
Qed.
End Runs.
