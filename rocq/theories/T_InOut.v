(** * Properties C26 and C42: data exchanged between Python and C++. *)
From Verif Require Import Num NumFacts Arr ArrFacts Spec MinSumFacts P_Tsp_Constraints P_Kc_Trellis P_Equality M_InOut P_InOut.
Local Open Scope nat_scope.

(** C26, KC-MWM.  What [ImpaKcMwm.process_inputs_ctypes] flattens is what
    [InputsKcMwm::process_inputs] rebuilds; the participation lists it rebuilds are the lists of
    teams of non-zero weight, and the initial messages are the rewards of participating teams. *)
Theorem C26_kc_inputs :
  forall (T D P : nat) (W : list (list nat)) (R : list (list num)) (reward : list num) (caps : list nat),
    shape D T W -> shape P T R -> length reward = T -> length caps = D ->
    exists inp,
      (let nz := py_nonzero W in
       kc_process_inputs T D P (list_max (map (@length nat) nz)) reward
         (concat (py_team_messages W reward)) (concat W) (map (@length nat) nz) (concat (py_pad nz))
         (concat R) caps) = Some inp /\
      kc_reward_team inp = reward /\ kc_weights inp = W /\ kc_reward_project inp = R /\
      kc_max_state inp = caps /\
      kc_nonzero inp = map (participants T) W /\
      shape D T (kc_team2knapsack inp) /\
      (forall d t w r, get2 W d t = Some w -> nth_error reward t = Some r ->
         get2 (kc_team2knapsack inp) d t = Some (if w =? 0 then n0 else r)).
Proof.
  intros T D P W R reward caps HW HR Hr Hc. cbn zeta.
  set (nz := py_nonzero W).
  assert (Lnz : length nz = D) by (unfold nz, py_nonzero; rewrite map_length; destruct HW; auto).
  assert (Sm : shape D T (py_team_messages W reward)).
  { unfold py_team_messages. destruct HW as [L F]. split; [rewrite map_length; auto|].
    apply Forall_map, Forall_forall. intros r Hin. rewrite map_length, seq_length.
    rewrite Forall_forall in F. auto. }
  eexists. split; [|split; [|split; [|split; [|split; [|split; [|split]]]]]].
  - unfold kc_process_inputs. rewrite (slice_all reward T) by auto. rewrite (slice_all caps D) by auto. cbn [bind].
    rewrite <- Lnz at 1. rewrite read_padded_ok. cbn [bind].
    rewrite !read_rows_ok by auto. cbn [bind]. reflexivity.
  - reflexivity.
  - reflexivity.
  - reflexivity.
  - reflexivity.
  - cbn. unfold nz, py_nonzero. apply map_ext_in. intros r Hin. unfold participants.
    destruct HW as [L F]. rewrite Forall_forall in F. rewrite (F r Hin). reflexivity.
  - cbn. auto.
  - cbn. intros d t w r Hd Ht. unfold get2 in *. unfold py_team_messages. rewrite get_map.
    destruct (get W d) as [row|] eqn:Gd; [|discriminate]. cbn [bind option_map] in *.
    assert (Lr : length row = T) by (eapply shape_row; eauto).
    pose proof (get_Some_lt _ _ _ Hd) as Hlt. rewrite get_map. rewrite get_seq by lia. cbn [option_map].
    rewrite (get_nth row t 0) in Hd by lia. injection Hd as <-. cbn [Nat.add].
    destruct (nth t row 0 =? 0); cbn [negb]; auto.
    change (nth_error reward t) with (get reward t) in Ht.
    rewrite (get_nth reward t n0) in Ht by lia. auto.
Qed.

(** C26, TSP inputs *)
Theorem C26_tsp_inputs :
  forall (n : nat) (E : list (nat * nat)) (cost : list num) (CM EC DC : list (list num)),
    length cost = length E -> shape n n CM -> shape (length E) n EC -> shape (length E) n DC ->
    tsp_process_inputs n (length E) (flat_edges E) cost (concat CM) (concat EC) (concat DC)
    = Some {| tsp_edges := E; tsp_cost_edge := cost; tsp_cost_matrix := CM;
              tsp_degree_cost := DC; tsp_edge2degree := EC |}.
Proof.
  intros n E cost CM EC DC Hc H1 H2 H3. unfold tsp_process_inputs. rewrite (slice_all cost) by auto. cbn [bind].
  assert (Ef : flat_edges E = concat (map (fun e => [fst e; snd e]) E)).
  { unfold flat_edges. apply flat_map_concat_map. }
  rewrite Ef, (read_rows_ok 0 (length E) 2).
  2:{ split; [apply map_length|]. apply Forall_map, Forall_forall. auto. }
  cbn [bind]. assert (Em : mapM pair_of (map (fun e => [fst e; snd e]) E) = Some E).
  { clear. induction E as [|[a b] E IH]; cbn; auto. cbn in IH. rewrite IH. reflexivity. }
  rewrite Em. cbn [bind]. rewrite !read_rows_ok by auto. reflexivity.
Qed.

(** C26, K-SAT inputs: variables outside the used list have no connections *)
Theorem C26_ksat_inputs :
  forall (nv nc k : nat) (used : list nat) (metrics : list num) (conx : list (list nat))
         (types : list (list Z)) (M : list (list num)) (varconx : list (list nat)),
    length metrics = nv -> shape nc k conx -> shape nc k types -> shape nc nv M ->
    length varconx = nv -> (forall j, j < nv -> ~ In j used -> nth j varconx [] = []) ->
    ksat_process_inputs nv nc k (length used) used (concat varconx) (map (@length nat) varconx)
      (concat conx) (concat types) metrics (concat M)
    = Some {| ks_used := used; ks_metrics := metrics; ks_conx := conx; ks_type := types;
              ks_var2clause := M; ks_varconx := varconx |}.
Proof.
  intros nv nc k used metrics conx types M vc H1 H2 H3 H4 H5 H6. unfold ksat_process_inputs.
  rewrite (slice_all used) by auto. rewrite (slice_all metrics nv) by auto. cbn [bind].
  rewrite (slice_all _ nv) by (rewrite map_length; auto). cbn [bind].
  rewrite !read_rows_ok by auto. cbn [bind]. rewrite read_varconx_ok by auto. reflexivity.
Qed.

(** C26, TSP outputs: whatever fits in the buffers is read back by Python as it was. *)
Theorem C26_tsp_outputs :
  forall (tour : list nat) (selected : list (nat * nat)) (paths : list (list nat))
         (sizes bt be bp bs : list nat) (m : nat) (o : tsp_outputs),
    bs = repeat 0 m ->
    write_outputs tour selected paths sizes bt be bp bs = Some o ->
    py_selected_edges (to_edges_size o) (to_edges o) = Some selected /\
    (* subtours *)
    (paths <> [] -> Forall (fun p => p <> []) paths -> sizes = map (@length nat) paths ->
       py_subtours (to_sizes o) (to_paths o) = Some (map (fun p => p ++ firstn 1 p) paths)) /\
    (sizes = [] -> py_subtours (to_sizes o) (to_paths o) = None) /\
    (* tour *)
    (length tour = length bt -> (exists x, In x tour /\ x <> 0) -> py_tour (to_tour o) = Some tour) /\
    (tour = [] -> Forall (eq 0) bt -> py_tour (to_tour o) = None).
Proof.
  intros tour selected paths sizes bt be bp bs m o -> H. unfold write_outputs in H.
  destruct (copy_into tour bt) as [t|] eqn:Et; [|discriminate]. cbn [bind] in H.
  destruct (copy_into (flat_edges selected) be) as [e|] eqn:Ee; [|discriminate]. cbn [bind] in H.
  destruct (copy_into (concat paths) bp) as [p|] eqn:Ep; [|discriminate]. cbn [bind] in H.
  destruct (copy_into sizes (repeat 0 m)) as [s|] eqn:Es; [|discriminate]. cbn [bind] in H.
  injection H as <-. cbn [to_tour to_edges to_edges_size to_paths to_sizes].
  split; [|split; [|split; [|split]]].
  - unfold py_selected_edges. rewrite (copy_into_firstn _ _ _ Ee). apply pairs_of_flat.
  - intros Hne HF ->. eapply py_subtours_ok; eauto.
  - intros ->. unfold copy_into in Es. cbn in Es. injection Es as <-. unfold py_subtours.
    assert (E0 : filter (fun x => negb (x =? 0)) (repeat 0 m) = []) by (clear; induction m; cbn; auto).
    rewrite E0. reflexivity.
  - intros Hl (x & Hx & Hnz). rewrite copy_into_same in Et by auto. injection Et as <-. unfold py_tour.
    destruct (forallb (fun x => x =? 0) tour) eqn:Ef; auto. rewrite forallb_forall in Ef. specialize (Ef x Hx).
    apply Nat.eqb_eq in Ef. contradiction.
  - intros -> HF. unfold copy_into in Et. cbn in Et. injection Et as <-. unfold py_tour.
    assert (E0 : forallb (fun x => x =? 0) bt = true).
    { apply forallb_forall. rewrite Forall_forall in HF. intros x Hx. apply Nat.eqb_eq. symmetry; auto. }
    rewrite E0. reflexivity.
Qed.

Example C26_example_kc :
  let W := [[2; 0; 1]; [0; 3; 0]] in
  py_nonzero W = [[0; 2]; [1]] /\ py_pad (py_nonzero W) = [[0; 2]; [1; 0]] /\
  option_map kc_nonzero
    (kc_process_inputs 3 2 1 2 [n1; n1; n1] (concat (py_team_messages W [n1; n1; n1])) (concat W) [2; 1]
       [0; 2; 1; 0] [n0; n0; n0] [4; 5]) = Some [[0; 2]; [1]].
Proof. vm_compute. auto. Qed.
Example C26_example_outputs :
  exists o, write_outputs [] [(0,1);(1,0);(2,3);(3,2)] [[1;0];[3;2]] [2;2] (repeat 0 5) (repeat 0 12)
              (repeat 0 16) (repeat 0 16) = Some o /\
    py_selected_edges (to_edges_size o) (to_edges o) = Some [(0,1);(1,0);(2,3);(3,2)] /\
    py_subtours (to_sizes o) (to_paths o) = Some [[1;0;1];[3;2;3]] /\ py_tour (to_tour o) = None.
Proof. eexists. split; [reflexivity|]. vm_compute. auto. Qed.
Example C26_example_ksat :
  option_map ks_varconx
    (ksat_process_inputs 4 2 2 3 [0; 1; 3] [0; 0; 1; 1] [1; 2; 0; 1] [0; 1; 3; 1] [1; -1; 1; 1]%Z
       (repeat n0 4) (repeat n0 8)) = Some [[0]; [0; 1]; []; [1]].
Proof. vm_compute. reflexivity. Qed.

(** C42.  Every position of the flat intrinsic output is the value of one (project, team) pair:
    position p*T+t holds coupling + project message + reward of (p,t). *)
Theorem C42_intrinsic_layout :
  forall (P T : nat) (A B R : list (list Qc)) (out : list num),
    shape P T A -> shape P T B -> shape P T R -> length out = P * T ->
    exists out',
      intrinsic_out_mwm T (inj A) (inj B) (inj R) out = Some out' /\ length out' = P * T /\
      forall i, i < P * T ->
        nth_error out' i =
          Some (Fin (qat A (i / T) (i mod T) + qat B (i / T) (i mod T) + qat R (i / T) (i mod T))%Qc).
Proof.
  intros P T A B R out HA HB HR HO.
  destruct (intrinsic_out_mwm_ok P T A B R out HA HB HR HO) as (q & E & L & H).
  exists (map Fin q). split; [exact E|]. rewrite map_length. split; auto.
  intros i Hi. assert (T <> 0) by nia. pose proof (Nat.div_mod i T ltac:(auto)) as X.
  pose proof (Nat.mod_upper_bound i T ltac:(auto)). assert (i / T < P) by (apply Nat.div_lt_upper_bound; lia).
  change (nth_error (map Fin q) i) with (get (map Fin q) i).
  rewrite (get_mapFin _ _ (P * T)) by auto. do 2 f_equal. rewrite <- H by auto. f_equal. lia.
Qed.

(** C42.  The extrinsic output of a team is everything that enters the team except its reward. *)
Theorem C42_extrinsic_team :
  forall (D T : nat) (X : list (list Qc)) (oric : list Qc) (out : list num),
    shape D T X -> length oric = T -> length out = T ->
    exists out',
      extrinsic_output_team (inj X) (map Fin oric) out = Some out' /\ length out' = T /\
      forall t, t < T -> nth_error out' t = Some (Fin (nth t oric 0 + qsum (col X D t))%Qc).
Proof.
  intros D T X oric out HX Ho HO.
  destruct (extrinsic_output_team_ok D T X oric out HX Ho HO) as (q & E & L & H).
  exists (map Fin q). split; [exact E|]. rewrite map_length. split; auto. intros t Ht.
  rewrite <- H by auto. apply (get_mapFin _ _ T); auto.
Qed.

Example C42_example :
  let A := map (map zq) [[1;2;3];[4;5;6]]%Z in
  let B := map (map zq) [[10;20;30];[40;50;60]]%Z in
  let R := map (map zq) [[100;200;300];[400;500;600]]%Z in
  option_map (map view) (intrinsic_out_mwm 3 (inj A) (inj B) (inj R) (repeat n0 6))
  = Some (map (fun z => VFin (inject_Z z)) [111;222;333;444;555;666])%Z /\
  option_map (map view) (extrinsic_output_team (inj A) (map Fin (map zq [10;20;30]%Z)) (repeat n0 3))
  = Some (map (fun z => VFin (inject_Z z)) [15;27;39])%Z.
Proof. vm_compute. auto. Qed.

Print Assumptions C26_kc_inputs.
Print Assumptions C26_tsp_inputs.
Print Assumptions C26_ksat_inputs.
Print Assumptions C26_tsp_outputs.
Print Assumptions C42_intrinsic_layout.
Print Assumptions C42_extrinsic_team.
