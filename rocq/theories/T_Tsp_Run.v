(** * Properties of whole TSP runs (C++): C18 - C24. *)
From Coq Require Import Permutation.
From Verif Require Import Num NumFacts Arr ArrFacts Spec SpecGraph.
From Verif Require Import P_Kc_Trellis P_Ksat M_InOut M_Runs.
From Verif Require Import M_Tsp_Loops P_Tsp_Loops M_Tsp_Run P_Tsp_Run P_Tsp_Fin M_Tsp_Py P_Tsp_Py.
Local Open Scope nat_scope.

(** In this file [p] is a run: problem data, options, and the iteration order [p_ord] of the C++ hash
    map, of which only [forall l, Permutation (p_ord p l) l] is assumed.
    [history p (st :: l)] (P_Tsp_Run.v) lists the states of a run after the relaxed model and after
    each augmentation round, the latest first; [solve_history] there shows that a finished call
    returns the latest state of a history, up to rows of zeros added to one message array. *)

(** ** Concrete runs used by the examples *)

Definition z2n (z : Z) : num := Fin (Q2Qc (inject_Z z)).
Definition thr4 : num := Fin (Q2Qc (-1 # 10000)).
Definition demo (n iters : nat) (max_count : Z) (cm : list (list Z)) : tsp_params :=
  let cm := map (map z2n) cm in
  let E := py_edges cm in
  let '(ce, m) := match py_tsp_arrays n cm E with Some x => x | None => ([], []) end in
  {| p_n := n; p_e := n * n - n; p_iters := iters; p_aug := true; p_reset := true; p_filt := false;
     p_alpha := n0; p_thr := thr4; p_max_count := max_count;
     p_in := {| tsp_edges := E; tsp_cost_edge := ce; tsp_cost_matrix := cm; tsp_degree_cost := m;
                tsp_edge2degree := m |};
     p_ord := fun l => l |}.
Definition cost_of (st : tsp_state) : Q :=
  match r_cost (t_sol st) with Fin q => this q | _ => 0 end.
(** tour, selected edges, cost, rounds, constraints *)
Definition seen (o : option outcome) :=
  match o with
  | Some (Returned st) => Some (a_tour (t_an st), r_selected (t_sol st), cost_of st,
                                c_num_aug (t_cnt st), a_deltas (t_an st))
  | _ => None
  end.
(** a tour after two rounds and three constraints *)
Definition demo4 := demo 4 10 20 [[0; 1; 8; 6]; [2; 0; 2; 7]; [4; 8; 0; 3]; [7; 6; 2; 0]]%Z.
(** a tour and one more selected edge *)
Definition demo3 := demo 3 5 20 [[0; 1; 4]; [6; 0; 5]; [8; 7; 0]]%Z.

Lemma qsum_perm : forall l l', Permutation l l' -> qsum l = qsum l'.
Proof.
  intros l l' P; induction P as [|x l l' P IH|x y l|l l1 l2 P1 IH1 P2 IH2].
  - reflexivity.
  - rewrite !qsum_cons, IH; reflexivity.
  - rewrite !qsum_cons. ring.
  - congruence.
Qed.

(** ** C18 *)

(** If the solver reports a tour, it lists the [n] nodes once each, then the first one again, and
    goes along selected edges, which are edges of the graph.  If it does not, the list is empty. *)
Theorem C18_tour_is_hamiltonian : forall fuel p max st,
  (forall l, Permutation (p_ord p l) l) -> edges_in (p_n p) (tsp_edges (p_in p)) ->
  tsp_solve fuel p max = Some (Returned st) ->
  incl (r_selected (t_sol st)) (tsp_edges (p_in p))
  /\ (a_tour_flag (t_an st) = false -> a_tour (t_an st) = [])
  /\ (a_tour_flag (t_an st) = true ->
      exists t x, a_tour (t_an st) = t ++ [x] /\ nth_error t 0 = Some x
        /\ NoDup t /\ (forall u, In u t <-> u < p_n p)
        /\ forall u v, consecutive (t ++ [x]) u v -> In (u, v) (r_selected (t_sol st))).
Proof.
  intros fuel p max st Po He R. pose proof (solve_history _ _ _ _ R) as (l & st0 & H & S).
  assert (Q : t_sol st = t_sol st0 /\ t_an st = t_an st0).
  { destruct S as [(-> & _)| ->]; [auto|]. destruct (grow_fields p st0) as (A & B & _); auto. }
  destruct Q as (-> & ->). destruct (history_open _ _ _ H) as (_ & (D & _) & O & _).
  split; [exact (select_incl _ _ _ _ D)|]. split; [intros F; apply O, F|].
  intros F. destruct (tour_hamiltonian _ _ _ Po He H F) as (t & x & T & Hx & (N & y & t' & -> & P) & Pm).
  cbn in Hx; injection Hx as <-.
  exists (y :: t'), y. split; [exact T|]. split; [reflexivity|]. split; [exact N|]. split.
  - intros u; split.
    + intros I; apply (Permutation_in _ Pm) in I. apply in_seq in I; lia.
    + intros Hu; apply (Permutation_in _ (Permutation_sym Pm)), in_seq; lia.
  - exact P.
Qed.
Example C18_example :
  option_map (fun x => fst (fst x)) (seen (tsp_solve 60 demo4 50))
  = Some ([1; 2; 3; 0; 1], [(0, 1); (1, 2); (2, 3); (3, 0)], 13%Q).
Proof. vm_compute. reflexivity. Qed.

(** ** C19 *)

(** The cost is the sum of the costs of the selected edges. *)
Theorem C19_cost_of_selection : forall fuel p max st (w : nat * nat -> Qc),
  length (tsp_edges (p_in p)) = p_e p ->
  tsp_cost_edge (p_in p) = map (fun e => Fin (w e)) (tsp_edges (p_in p)) ->
  tsp_solve fuel p max = Some (Returned st) ->
  r_cost (t_sol st) = Fin (qsum (map w (r_selected (t_sol st))))
  /\ r_selected (t_sol st)
     = map snd (filter (fun ie => negb (ngt (nth (fst ie) (r_intr (t_sol st)) n0) (p_thr p)))
                       (combine (seq 0 (p_e p)) (tsp_edges (p_in p)))).
Proof.
  intros fuel p max st w Le Ec R. pose proof (solve_history _ _ _ _ R) as (l & st0 & H & S).
  assert (Q : t_sol st = t_sol st0).
  { destruct S as [(-> & _)| ->]; [auto|]. destruct (grow_fields p st0) as (A & _); auto. }
  rewrite Q. destruct (history_open _ _ _ H) as (_ & (D1 & D2) & _).
  pose proof (history_intr _ _ _ H) as Li.
  rewrite (select_ok _ _ _ _ Li Le) in D1. injection D1 as D1.
  assert (Ec' : tsp_cost_edge (p_in p) = map Fin (map w (tsp_edges (p_in p)))) by (rewrite Ec, map_map; reflexivity).
  rewrite Ec' in D2. rewrite (cost_ok _ _ _ _ Li) in D2 by (rewrite map_length; exact Le). injection D2 as D2.
  rewrite <- D2, <- D1. unfold chosen. rewrite Li.
  set (f := fun i => negb (ngt (nth i (r_intr (t_sol st0)) n0) (p_thr p))). split.
  - f_equal. f_equal. rewrite map_map. apply map_ext_in. intros i I. apply filter_In in I as (I & _). apply in_seq in I.
    rewrite (nth_indep _ 0%Qc (w (0, 0))) by (rewrite map_length; lia). apply map_nth.
  - change (fun ie : nat * (nat * nat) => negb (ngt (nth (fst ie) (r_intr (t_sol st0)) n0) (p_thr p)))
      with (fun ie : nat * (nat * nat) => f (fst ie)).
    rewrite <- Le. clear. generalize (tsp_edges (p_in p)) as E.
    assert (G : forall E s, map (fun i => nth (i - s) E (0, 0)) (filter f (seq s (length E)))
      = map snd (filter (fun ie : nat * (nat * nat) => f (fst ie)) (combine (seq s (length E)) E))).
    { induction E as [|a E IH]; intros s; [reflexivity|]. cbn [length seq combine filter fst].
      assert (X : map (fun i => nth (i - s) (a :: E) (0, 0)) (filter f (seq (S s) (length E)))
        = map snd (filter (fun ie : nat * (nat * nat) => f (fst ie)) (combine (seq (S s) (length E)) E))).
      { rewrite <- IH. apply map_ext_in. intros i I. apply filter_In in I as (I & _). apply in_seq in I.
        replace (i - s) with (S (i - S s)) by lia. reflexivity. }
      destruct (f s); cbn [map snd]; [|exact X]. rewrite X, Nat.sub_diag. reflexivity. }
    intros E. rewrite <- G. apply map_ext. intros i; now rewrite Nat.sub_0_r.
Qed.
(** Full statement: when a tour is reported the cost is the cost of that tour.  False: the tour
    [1; 2; 0] costs 14, but edge (2, 1) is selected as well and the cost is 21. *)
Theorem C19_tour_cost_refuted : exists p st t (w : nat * nat -> Qc),
  complete (p_n p) (tsp_edges (p_in p)) /\ (forall l, Permutation (p_ord p l) l)
  /\ tsp_cost_edge (p_in p) = map (fun e => Fin (w e)) (tsp_edges (p_in p))
  /\ tsp_solve 60 p 50 = Some (Returned st) /\ a_tour (t_an st) = t /\ a_tour_flag (t_an st) = true
  /\ r_cost (t_sol st) <> Fin (qsum (map w (steps t))).
Proof.
  pose (C := map (map (fun z => Q2Qc (inject_Z z))) [[0; 1; 4]; [6; 0; 5]; [8; 7; 0]]%Z).
  pose (w := fun e : nat * nat => qat C (fst e) (snd e)).
  assert (X : match tsp_solve 60 demo3 50 with
    | Some (Returned st) => a_tour_flag (t_an st) && list_eqb (a_tour (t_an st)) [1; 2; 0; 1] && Qeq_bool (cost_of st) 21
    | _ => false end = true) by (vm_compute; reflexivity).
  destruct (tsp_solve 60 demo3 50) as [[st| |st]|] eqn:R; try discriminate X.
  apply andb_prop in X as (X & X3). apply andb_prop in X as (X1 & X2). apply list_eqb_eq in X2.
  exists demo3, st, [1; 2; 0; 1], w.
  split; [|split; [intros l; apply Permutation_refl|split; [|split; [exact R|split; [exact X2|split; [exact X1|]]]]]].
  - split.
    + repeat constructor; cbn; intuition congruence.
    + intros u v; cbn. split; [intuition (match goal with H : (_, _) = (_, _) |- _ => injection H as <- <- end; lia)|].
      intros (A & B & N). destruct u as [|[|[|u]]], v as [|[|[|v]]]; try lia; tauto.
  - cbn. repeat f_equal; apply Qc_is_canon; reflexivity.
  - intros Q. unfold cost_of in X3. rewrite Q in X3. vm_compute in X3. discriminate X3.
Qed.
(** What holds: the reported cost is the cost of the tour plus the cost of the selected edges that
    are not on it.  With exactly [n] selected edges it is the cost of the tour; with non-negative
    costs it is never below. *)
Theorem C19_tour_cost_partial : forall fuel p max st (w : nat * nat -> Qc),
  (forall l, Permutation (p_ord p l) l) -> edges_in (p_n p) (tsp_edges (p_in p)) ->
  NoDup (tsp_edges (p_in p)) -> length (tsp_edges (p_in p)) = p_e p ->
  tsp_cost_edge (p_in p) = map (fun e => Fin (w e)) (tsp_edges (p_in p)) ->
  tsp_solve fuel p max = Some (Returned st) -> a_tour_flag (t_an st) = true ->
  exists extra, Permutation (r_selected (t_sol st)) (steps (a_tour (t_an st)) ++ extra)
    /\ r_cost (t_sol st) = Fin (qsum (map w (steps (a_tour (t_an st)))) + qsum (map w extra))
    /\ (length (r_selected (t_sol st)) = p_n p ->
        r_cost (t_sol st) = Fin (qsum (map w (steps (a_tour (t_an st)))))).
Proof.
  intros fuel p max st w Po He Nd Le Ec R F.
  destruct (C18_tour_is_hamiltonian _ _ _ _ Po He R) as (_ & _ & T). destruct (T F) as (t & x & Et & Hx & Nt & Ht & Pt).
  destruct (C19_cost_of_selection _ _ _ _ _ Le Ec R) as (Cq & Sq). rewrite Et.
  assert (Is : incl (steps (t ++ [x])) (r_selected (t_sol st))).
  { intros (u & v) I. apply Pt, in_steps, I. }
  destruct (take_out _ _ (steps_nodup t x Nt) Is) as (extra & Pm).
  exists extra. split; [exact Pm|].
  assert (G : r_cost (t_sol st) = Fin (qsum (map w (steps (t ++ [x]))) + qsum (map w extra))).
  { rewrite Cq. f_equal. rewrite (qsum_perm _ _ (Permutation_map w Pm)), map_app, qsum_app. reflexivity. }
  split; [exact G|]. intros L. rewrite G. f_equal.
  assert (Z : extra = []).
  { apply Permutation_length in Pm. rewrite app_length, L in Pm.
    pose proof (steps_sources t x) as Q. apply (f_equal (@length nat)) in Q. rewrite map_length in Q.
    assert (Lt : length t = p_n p).
    { rewrite <- (seq_length (p_n p) 0). apply Permutation_length, NoDup_Permutation; [exact Nt|apply seq_NoDup|].
      intros u; rewrite Ht, in_seq. lia. }
    apply length_zero_iff_nil. lia. }
  rewrite Z. cbn. ring.
Qed.
(** both situations occur *)
Example C19_example :
  option_map (fun x => fst (fst x)) (seen (tsp_solve 60 demo4 50))
  = Some ([1; 2; 3; 0; 1], [(0, 1); (1, 2); (2, 3); (3, 0)], 13%Q)
  /\ option_map (fun x => fst (fst x)) (seen (tsp_solve 60 demo3 50))
  = Some ([1; 2; 0; 1], [(0, 1); (1, 2); (2, 0); (2, 1)], 21%Q).
Proof. split; vm_compute; reflexivity. Qed.

(** ** C20 *)

(** Constraints are pairwise different and non-empty; each one is the increasing list of the edges
    leaving a loop that was reported after the relaxed model or one of the rounds; every loop just
    reported has its constraint in the list, unless nothing leaves it; no constraint is ever removed
    or moved. *)
Theorem C20_constraints : forall p st l, (forall l, Permutation (p_ord p l) l) ->
  history p (st :: l) ->
  NoDup (a_deltas (t_an st))
  /\ (forall d, In d (a_deltas (t_an st)) -> d <> [] /\ increasing d
        /\ exists s lp, In s (st :: l) /\ In lp (a_paths (t_an s))
           /\ cycle (r_selected (t_sol s)) lp
           /\ forall i, In i d <-> leaves (tsp_edges (p_in p)) lp i)
  /\ (a_tour_flag (t_an st) = false -> forall lp i, In lp (a_paths (t_an st)) ->
        leaves (tsp_edges (p_in p)) lp i ->
        exists d, In d (a_deltas (t_an st)) /\ forall j, In j d <-> leaves (tsp_edges (p_in p)) lp j)
  /\ (forall s, In s (st :: l) -> exists new, a_deltas (t_an st) = a_deltas (t_an s) ++ new).
Proof.
  intros p st l Po H. destruct (history_deltas _ _ _ H) as (Fo & No & _ & Co).
  split; [exact No|]. split; [|split; [|exact (history_prefix _ _ _ H)]].
  - intros d Hd. rewrite Forall_forall in Fo. destruct (Fo d Hd) as (s & lp & Is & Il & Ed & Nd).
    split; [exact Nd|]. split; [rewrite Ed; apply delta_increasing|].
    exists s, lp. split; [exact Is|]. split; [exact Il|]. split.
    + destruct (history_paths _ _ _ H Is) as (_ & G). rewrite (loops_eq _ Po) in G. injection G as G.
      rewrite <- G in Il. exact (keep_cycle _ _ _ Il).
    + intros i; rewrite Ed; apply in_delta.
  - intros F lp i Il Lv. exists (delta_S (tsp_edges (p_in p)) lp). split; [|intros j; apply in_delta].
    apply Co; auto. intros Z. apply in_delta in Lv. rewrite Z in Lv. exact Lv.
Qed.
(** and these are the constraints of the states that a call can end in *)
Theorem C20_run : forall fuel p max o, tsp_solve fuel p max = Some o ->
  match o with
  | Returned st | Running st => exists st0 l, history p (st0 :: l) /\ a_deltas (t_an st) = a_deltas (t_an st0)
      /\ c_num_aug (t_cnt st) = length l
  | Exited => True
  end.
Proof.
  intros fuel p max o R. pose proof (solve_history _ _ _ _ R) as G. destruct o as [st| |st]; [|exact I|].
  - destruct G as (l & st0 & H & S). exists st0, l. destruct (history_open _ _ _ H) as (_ & _ & _ & N).
    destruct (grow_fields p st0) as (_ & G2 & G3). destruct S as [(-> & _)| ->]; rewrite ?G2, ?G3; auto.
  - destruct G as (l & st0 & H & S & _). exists st0, l. destruct (history_open _ _ _ H) as (_ & _ & _ & N).
    destruct (grow_fields p st0) as (_ & G2 & G3). rewrite S, G2, G3; auto.
Qed.
Example C20_example : option_map snd (seen (tsp_solve 60 demo4 50)) = Some [[1; 2; 4; 5]; [6; 7; 9; 10]; [0; 7; 10]].
Proof. vm_compute. reflexivity. Qed.

(** ** C21 *)

(** Every tour of the graph uses an edge of every constraint. *)
Theorem C21_no_tour_excluded : forall p st l d c,
  (forall l, Permutation (p_ord p l) l) -> edges_in (p_n p) (tsp_edges (p_in p)) ->
  history p (st :: l) -> In d (a_deltas (t_an st)) ->
  hamiltonian (p_n p) (tsp_edges (p_in p)) c ->
  exists x c' i u v, c = x :: c' /\ In i d /\ nth_error (tsp_edges (p_in p)) i = Some (u, v)
    /\ consecutive (c ++ [x]) u v.
Proof.
  intros p st l d c Po He H Hd (C & Pm).
  destruct (C20_constraints p st l Po H) as (_ & Q & _). destruct (Q d Hd) as (Nd & _ & s & lp & Is & Il & Cl & Hl).
  destruct d as [|i0 d]; [congruence|].
  destruct (proj1 (Hl i0) (or_introl eq_refl)) as (u0 & v0 & G0 & Iu & Nv).
  assert (B : u0 < p_n p /\ v0 < p_n p).
  { unfold edges_in in He; rewrite Forall_forall in He. exact (He _ (nth_error_In _ _ G0)). }
  assert (Ic : forall z, z < p_n p -> In z c).
  { intros z Hz; apply (Permutation_in _ (Permutation_sym Pm)), in_seq; lia. }
  destruct (cycle_crosses (tsp_edges (p_in p)) c (fun z => In z lp)) as (x & c' & Ec & u & v & Cs & Su & Nw).
  - intros z; apply in_dec, Nat.eq_dec.
  - exact C.
  - exists u0; split; [apply Ic; tauto|exact Iu].
  - exists v0; split; [apply Ic; tauto|exact Nv].
  - assert (E : In (u, v) (tsp_edges (p_in p))).
    { destruct C as (_ & y & c0 & Ey & P). rewrite Ec in Ey. injection Ey as <- <-. exact (P _ _ Cs). }
    apply In_nth_error in E as (i & G). exists x, c', i, u, v.
    split; [exact Ec|]. split; [apply Hl; exists u, v; auto|]. split; [exact G|exact Cs].
Qed.
(** The tour found in the example uses an edge of each of the three constraints: indices 0, 4, 8, 9
    are the edges (0,1), (1,2), (2,3), (3,0). *)
Example C21_example : map (fun i => nth i (tsp_edges (p_in demo4)) (0, 0)) [0; 4; 8; 9]
  = [(0, 1); (1, 2); (2, 3); (3, 0)].
Proof. reflexivity. Qed.

(** ** C22 *)

(** A reported loop that the selection never leaves, and that is not a tour, makes the selection
    violate a constraint from then on; and every later state keeps that constraint. *)
Theorem C22_loop_excluded : forall p st l s lp,
  (forall l, Permutation (p_ord p l) l) -> complete (p_n p) (tsp_edges (p_in p)) ->
  history p (st :: l) -> In s (st :: l) -> a_tour_flag (t_an s) = false ->
  In lp (a_paths (t_an s)) -> length lp <> p_n p ->
  (* selected edges that start on the loop are steps of the loop *)
  (forall u v, In (u, v) (r_selected (t_sol s)) -> In u lp ->
     exists x lp', lp = x :: lp' /\ consecutive (lp ++ [x]) u v) ->
  exists d, In d (a_deltas (t_an st)) /\ d <> []
    /\ forall i, In i d -> ~ In (nth i (tsp_edges (p_in p)) (0, 0)) (r_selected (t_sol s)).
Proof.
  intros p st l s lp Po Hc H Is F Il Nl Own.
  destruct (history_tail _ _ _ H Is) as (a & b & _ & Hs).
  destruct (history_paths _ _ _ H Is) as (Inc & G).
  assert (Cl : cycle (r_selected (t_sol s)) lp).
  { rewrite (loops_eq _ Po) in G. injection G as G. rewrite <- G in Il. exact (keep_cycle _ _ _ Il). }
  assert (He : forall u v, In (u, v) (r_selected (t_sol s)) -> u < p_n p /\ v < p_n p).
  { intros u v I. apply Inc, (proj2 Hc) in I. tauto. }
  pose proof (cycle_incl_nodes _ _ _ He Cl) as Bn.
  (* a node outside *)
  assert (X : exists y, y < p_n p /\ ~ In y lp).
  { destruct (forallb (fun y => existsb (Nat.eqb y) lp) (seq 0 (p_n p))) eqn:B.
    - exfalso. apply Nl. rewrite <- (seq_length (p_n p) 0). apply Nat.le_antisymm.
      + apply NoDup_incl_length; [exact (proj1 Cl)|exact Bn].
      + apply NoDup_incl_length; [apply seq_NoDup|]. intros y Hy. rewrite forallb_forall in B.
        specialize (B y Hy). apply existsb_exists in B as (z & Iz & Q). apply Nat.eqb_eq in Q. congruence.
    - assert (N : ~ (forall y, In y (seq 0 (p_n p)) -> existsb (Nat.eqb y) lp = true)).
      { rewrite <- forallb_forall, B; discriminate. }
      assert (D : forall ys, {y | In y ys /\ ~ In y lp} + {forall y, In y ys -> In y lp}).
      { induction ys as [|y ys IH]; [right; intros y []|].
        destruct (in_dec Nat.eq_dec y lp) as [I|I].
        - destruct IH as [(z & Iz & Nz)|A]; [left; exists z; split; [now right|exact Nz]|].
          right; intros z [<-|Iz]; auto.
        - left; exists y; split; [now left|exact I]. }
      destruct (D (seq 0 (p_n p))) as [(y & Iy & Ny)|A]; [exists y; split; [apply in_seq in Iy; lia|exact Ny]|].
      exfalso; apply N. intros y Iy. apply existsb_exists. exists y; split; [auto|apply Nat.eqb_refl]. }
  destruct X as (y & Hy & Ny). destruct Cl as (Nd & x & lp' & Elp & Pth).
  assert (Hx : x < p_n p). { assert (I : In x lp) by (rewrite Elp; now left). apply Bn, in_seq in I; lia. }
  assert (Ixy : In (x, y) (tsp_edges (p_in p))).
  { apply (proj2 Hc). repeat split; auto. intros ->. apply Ny. rewrite Elp; now left. }
  apply In_nth_error in Ixy as (i & Gi).
  destruct (C20_constraints p s b Po Hs) as (_ & _ & Add & _).
  destruct (Add F lp i Il) as (d & Id & Hd).
  { exists x, y. split; [exact Gi|]. split; [rewrite Elp; now left|exact Ny]. }
  exists d. split; [|split].
  - destruct (history_prefix _ _ _ H _ Is) as (new & Q). rewrite Q. apply in_or_app; now left.
  - intros ->. apply (proj2 (Hd i)). exists x, y. split; [exact Gi|]. split; [rewrite Elp; now left|exact Ny].
  - intros j Hj Sj. apply Hd in Hj as (u & v & Gj & Iu & Nv).
    rewrite (nth_error_nth _ _ _ Gj) in Sj. destruct (Own u v Sj Iu) as (z & lz & Ez & (q1 & q2 & Q)).
    apply Nv. assert (Iv : In v (lp ++ [z])) by (rewrite Q; apply in_or_app; right; cbn; auto).
    apply in_app_iff in Iv as [Iv|[<-|[]]]; [exact Iv|]. rewrite Ez; now left.
Qed.
(** In the first round of the example the selection consists of two loops, none of which is left. *)
Example C22_example : match iterate_relaxed demo4 (tsp_init demo4) with
  | Some st => r_selected (t_sol st) = [(0, 1); (1, 0); (2, 3); (3, 2)] /\ a_paths (t_an st) = [[1; 0]; [3; 2]]
               /\ a_deltas (t_an st) = [[1; 2; 4; 5]; [6; 7; 9; 10]]
  | None => False end.
Proof. vm_compute. repeat split; reflexivity. Qed.

(** ** C23 *)

(** With a positive limit the loop stops by itself within that many rounds, and no more are counted.
    [length l] is the number of rounds: see [C20_run]. *)
Theorem C23_limit : forall fuel p max, (1 <= max)%Z -> (max <= Z.of_nat fuel)%Z ->
  match tsp_solve fuel p max with
  | Some (Returned st) => (Z.of_nat (c_num_aug (t_cnt st)) <= max)%Z
  | Some (Running _) => False
  | _ => True
  end.
Proof.
  intros fuel p max Hm Hf. unfold tsp_solve.
  destruct (iterate_relaxed p (tsp_init p)) as [st|] eqn:R; cbn [bind]; [|exact I].
  destruct (relaxed_inv _ _ _ R) as (_ & _ & Cn & _).
  assert (Z0 : c_num_aug (t_cnt st) = 0) by (rewrite Cn; reflexivity).
  destruct (negb _ && _); [|rewrite Z0; lia].
  rewrite perform_grow by (exact (relaxed_sub _ _ R)).
  destruct (grow_fields p st) as (_ & _ & G3).
  apply augmentation_loop_limit; rewrite ?G3, ?Z0; lia.
Qed.
(** more rounds would be needed here: the limit stops the loop after one *)
Example C23_example : option_map (fun x => snd (fst x)) (seen (tsp_solve 60 demo4 1)) = Some 1
  /\ option_map (fun x => snd (fst x)) (seen (tsp_solve 60 demo4 50)) = Some 2.
Proof. split; vm_compute; reflexivity. Qed.
(** A limit of zero is not respected (the test is for equality, after the round). *)
Example C23_zero_limit : option_map (fun x => snd (fst x)) (seen (tsp_solve 60 demo4 0)) = Some 2.
Proof. vm_compute. reflexivity. Qed.

(** ** C24 *)

(** [selections (st :: l)] are the selections of the augmentation rounds, the latest first.  With
    [k = maxCount]:
    - the no-improvement flag means that the last [k + 2] of them exist and are equal;
    - the oscillation flag means that, of the last [k + 3], each differs from the next and equals
      the one after it;
    - the no-loops flag means that the last [k + 1] analyses reported no loop;
    - a state with a flag raised is the last one: no round starts from it. *)
Theorem C24_flags : forall p st l, (0 <= p_max_count p)%Z -> history p (st :: l) ->
  let k := Z.to_nat (p_max_count p) in
  let sels := selections (st :: l) in
  (c_noimp_flag (t_cnt st) = true -> forall i, i <= k + 1 ->
     nth_error sels i = Some (r_selected (t_sol st)))
  /\ (c_osc_flag (t_cnt st) = true -> forall i, i <= k ->
     exists s s', nth_error sels i = Some s /\ nth_error sels (i + 1) = Some s'
       /\ nth_error sels (i + 2) = Some s /\ s <> s')
  /\ (a_nocons_flag (t_an st) = true -> forall i, i <= k ->
     exists s, nth_error (st :: l) i = Some s /\ get_closed_loops (p_ord p) (r_selected (t_sol s)) = Some [])
  /\ (forall st', history p (st' :: st :: l) ->
        c_noimp_flag (t_cnt st) = false /\ c_osc_flag (t_cnt st) = false /\ a_nocons_flag (t_an st) = false
        /\ a_tour_flag (t_an st) = false).
Proof.
  intros p st l Hk H k sels. pose proof (history_counted _ _ _ H) as (_ & _ & C3 & C4 & C5 & C6).
  destruct (history_no_loops _ _ _ H) as (N1 & N2). fold sels in C3, C4.
  split; [|split; [|split]].
  - intros F i Hi. destruct (C5 F) as (A & B).
    destruct (C3 i) as (s & S1 & S2); [unfold k in Hi; lia|exact B|].
    assert (S0 : nth_error sels 0 = Some (r_selected (t_sol st))).
    { unfold sels, selections in *. destruct l as [|s0 l]; [cbn in S2; discriminate|reflexivity]. }
    congruence.
  - intros F i Hi. destruct (C6 F) as (A & B). destruct (C4 i) as (s & s' & S1 & S2 & S3 & S4); [unfold k in Hi; lia|].
    exists s, s'; auto.
  - intros F i Hi. destruct (N2 F) as (T & A & B). destruct (N1 T i) as (s & S1 & S2); [unfold k in Hi; lia|].
    exists s; split; [exact S1|]. rewrite <- S2. apply (history_paths p (st :: l)); [exact H|exact (nth_error_In _ _ S1)].
  - intros st' H'. inversion H' as [|? ? ? _ C _]; subst. destruct C as (_ & _ & C1 & C2 & C7 & C8 & _). auto.
Qed.
(** Runs that end with each of the flags, for [maxCount = 2] *)
Definition flags (o : option outcome) :=
  match o with
  | Some (Returned st) => Some (c_noimp_flag (t_cnt st), c_osc_flag (t_cnt st), a_nocons_flag (t_an st),
                                c_num_aug (t_cnt st))
  | _ => None
  end.
Example C24_example :
  flags (tsp_solve 60 (demo 3 1 2 [[0; 3; 8]; [3; 0; 3]; [1; 1; 0]]%Z) 50) = Some (true, false, false, 4)
  /\ flags (tsp_solve 60 (demo 4 5 2 [[0; 9; 1; 1]; [3; 0; 7; 9]; [7; 1; 0; 4]; [1; 7; 7; 0]]%Z) 50)
     = Some (false, true, false, 10)
  /\ flags (tsp_solve 60 (demo 3 2 2 [[0; 3; 3]; [5; 0; 6]; [4; 9; 0]]%Z) 50) = Some (false, false, true, 2).
Proof. vm_compute. repeat split; reflexivity. Qed.

Print Assumptions C18_tour_is_hamiltonian.
Print Assumptions C19_cost_of_selection.
Print Assumptions C19_tour_cost_refuted.
Print Assumptions C19_tour_cost_partial.
Print Assumptions C20_constraints.
Print Assumptions C20_run.
Print Assumptions C21_no_tour_excluded.
Print Assumptions C22_loop_excluded.
Print Assumptions C23_limit.
Print Assumptions C24_flags.
