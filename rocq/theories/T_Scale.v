(** * C66: the unit of the costs does not matter

    Everything below is about runs on arbitrary numbers, infinities and NaN included. *)
From Verif Require Import Num NumFacts Arr ArrFacts Spec SpecRun M_InOut M_Ksat M_Kc_Trellis M_Runs M_Tsp_Loops M_Tsp_Run M_Tsp_Py M_Tsp_Post M_Ksat_Py M_Kc_Py.
From Verif Require Import P_Param T_Tsp_Call T_Tsp_Post.
Local Open Scope nat_scope.

(** a number in a unit that is [c] times smaller *)
Definition scaled (c : Qc) (a : num) : num := match a with Fin x => Fin (c * x)%Qc | _ => a end.
Definition scaled_vector (c : Qc) : list num -> list num := map (scaled c).
Definition scaled_matrix (c : Qc) : list (list num) -> list (list num) := map (scaled_vector c).

Section Scaling.
Variable c : Qc.
Hypothesis Hc : (0 < c)%Qc.
Definition Sc (a b : num) : Prop := b = scaled c a.
Lemma mul_lt x y : (x < y)%Qc <-> (c * x < c * y)%Qc.
Proof. rewrite !(Qcmult_comm c). split; [intros; apply Qcmult_lt_compat_r; auto|]. intros H. apply Qcnot_le_lt. intros L.
  apply (Qcmult_le_compat_r _ _ c) in L; [|apply Qclt_le_weak; auto]. exact (Qclt_not_le _ _ H L). Qed.
Lemma S0 : Sc n0 n0. Proof. unfold Sc. cbn. unfold n0. f_equal. rewrite Qcmult_0_r. reflexivity. Qed.
Lemma Sinf : Sc PInf PInf. Proof. reflexivity. Qed.
Lemma Sadd a b x y : Sc a b -> Sc x y -> Sc (nadd a x) (nadd b y).
Proof. unfold Sc. intros -> ->. destruct a, x; cbn; auto. rewrite Qcmult_plus_distr_r. reflexivity. Qed.
Lemma Sopp a b : Sc a b -> Sc (nopp a) (nopp b).
Proof. unfold Sc. intros ->. destruct a; cbn; auto. f_equal. ring. Qed.
Lemma qltb_mul x y : qltb (c * x) (c * y) = qltb x y.
Proof.
  destruct (qltb x y) eqn:E; [apply qltb_true, (proj1 (mul_lt x y)), qltb_true, E|]. apply qltb_false in E. apply qltb_false.
  rewrite !(Qcmult_comm c). apply Qcmult_le_compat_r; auto. apply Qclt_le_weak; auto.
Qed.
Lemma Slt a b x y : Sc a b -> Sc x y -> nlt a x = nlt b y.
Proof. unfold Sc. intros -> ->. destruct a, x; cbn; auto. rewrite qltb_mul. reflexivity. Qed.
Lemma Snan a b : Sc a b -> is_nan a = is_nan b.
Proof. unfold Sc. intros ->. destruct a; reflexivity. Qed.
Lemma Snan_eq a b : Sc a b -> is_nan a = true -> a = b.
Proof. unfold Sc. intros ->. destruct a; cbn; auto; discriminate. Qed.
Lemma scaled_ninf x : scaled c (ninf_times x) = ninf_times x.
Proof. unfold ninf_times. destruct (qltb 0 x), (qltb x 0); reflexivity. Qed.
Lemma scaled_opp a : scaled c (nopp a) = nopp (scaled c a).
Proof. destruct a; cbn; auto. f_equal. ring. Qed.
Lemma qltb_pos x : qltb 0 (c * x) = qltb 0 x.
Proof. rewrite <- (qltb_mul 0 x), Qcmult_0_r. reflexivity. Qed.
Lemma qltb_neg x : qltb (c * x) 0 = qltb x 0.
Proof. rewrite <- (qltb_mul x 0), Qcmult_0_r. reflexivity. Qed.
Lemma ninf_mul x : ninf_times (c * x) = ninf_times x.
Proof. unfold ninf_times. rewrite qltb_pos, qltb_neg. reflexivity. Qed.
Lemma Smul w a b : Sc a b -> Sc (nmul a w) (nmul b w).
Proof.
  unfold Sc. intros ->. destruct a, w; cbn; auto; rewrite ?scaled_opp, ?scaled_ninf, ?ninf_mul; auto. f_equal. ring.
Qed.
Lemma Sabs a b : Sc a b -> Sc (nabs a) (nabs b).
Proof.
  unfold Sc. intros ->. destruct a; cbn; auto. rewrite qltb_neg.
  destruct (qltb q 0); cbn; auto. f_equal. ring.
Qed.
Lemma S_vec l l' : lrel Sc l l' <-> l' = scaled_vector c l.
Proof.
  split.
  - induction 1; cbn; auto. rewrite H, IHForall2. reflexivity.
  - intros ->. induction l; cbn; constructor; auto. reflexivity.
Qed.
Lemma S_mat l l' : mrel Sc l l' <-> l' = scaled_matrix c l.
Proof.
  split.
  - induction 1; cbn; auto. rewrite IHForall2. apply S_vec in H. rewrite H. reflexivity.
  - intros ->. induction l; cbn; constructor; auto. apply S_vec. reflexivity.
Qed.
Lemma Scap : (c <= 1)%Qc -> forall a b, Sc a b -> nlt a oric_cap = true -> nlt b oric_cap = true.
Proof.
  intros C a b. unfold Sc. intros ->. destruct a; cbn; auto. change (1000000 # 1)%Q with (inject_Z 1000000). intros H. apply qltb_true in H. apply qltb_true.
  destruct (Qclt_le_dec 0 q) as [P|P].
  - apply Qcle_lt_trans with q; auto. rewrite <- (Qcmult_1_l q) at 2. apply Qcmult_le_compat_r; auto. apply Qclt_le_weak; auto.
  - apply Qcle_lt_trans with 0%Qc.
    + rewrite <- (Qcmult_0_l c), (Qcmult_comm c q). apply Qcmult_le_compat_r; auto. apply Qclt_le_weak; auto.
    + reflexivity.
Qed.
End Scaling.

(** ** TSP *)

Definition scaled_options (c : Qc) (o : tsp_options) : tsp_options :=
  {| q_iters := q_iters o; q_aug := q_aug o; q_reset := q_reset o; q_filt := q_filt o; q_alpha := q_alpha o;
     q_thr := scaled c (q_thr o); q_max_count := q_max_count o; q_max_augm := q_max_augm o |}.
(** the same call in the smaller unit: same course, same integer outputs, numbers in the smaller unit *)
Definition same_call (c : Qc) (a b : option call_result) : Prop :=
  match a, b with
  | Some (Done r), Some (Done r') =>
      o_arrays r' = o_arrays r /\ o_extr r' = scaled_vector c (o_extr r) /\ o_cost r' = scaled c (o_cost r) /\
      o_num_aug r' = o_num_aug r /\ o_num_constraints r' = o_num_constraints r /\
      o_noimp_flag r' = o_noimp_flag r /\ o_nocons_flag r' = o_nocons_flag r /\ o_osc_flag r' = o_osc_flag r
  | Some Killed, Some Killed | Some Unfinished, Some Unfinished | None, None => True
  | _, _ => False
  end.
Theorem C66_tsp : forall c fuel o n cm ord, (0 < c)%Qc ->
  same_call c (py_run_tsp fuel o n cm ord) (py_run_tsp fuel (scaled_options c o) n (scaled_matrix c cm) ord).
Proof.
  intros c fuel o n cm ord Hc.
  pose proof (py_run_tsp_rel (Sc c) (S0 c) (Sinf c) (Sadd c) (Sopp c) (Slt c Hc) (Snan c) (Smul c Hc) fuel o (scaled_options c o) n cm
    (scaled_matrix c cm) ord) as H.
  assert (O : opt_rel (Sc c) o (scaled_options c o)) by (repeat split; reflexivity).
  specialize (H O (proj2 (S_mat c _ _) eq_refl)). unfold same_call.
  destruct (py_run_tsp fuel o n cm ord) as [[r| |]|], (py_run_tsp fuel (scaled_options c o) n (scaled_matrix c cm) ord) as [[r'| |]|]; cbn in H; auto.
  destruct H as (A1 & A2 & A3 & A4 & A5 & A6 & A7 & A8). apply S_vec in A1. unfold Sc in A4. repeat split; auto.
Qed.

(** Everything a Python caller does: build the arrays, call the library, read the results, repair the
    selection if asked for.  [inl] is a call that does not come back with results. *)
Definition py_solve (fuel : nat) (o : tsp_options) (pp kopt : bool) (n : nat) (cm : list (list num)) (ord : list nat -> list nat)
  : option (call_result + py_tsp_answer) :=
  ' (cost, _) <- py_tsp_arrays n cm (py_edges cm) ;;
  x <- py_run_tsp fuel o n cm ord ;;
  match x with
  | Done r => a <- py_finish pp kopt n cm cost r ;; Some (inr a)
  | _ => Some (inl x)
  end.
Theorem C66_tsp_answer : forall c fuel o pp kopt n cm ord, (0 < c)%Qc ->
  py_solve fuel (scaled_options c o) pp kopt n (scaled_matrix c cm) ord =
  option_map (fun x => match x with
    | inr a => inr {| y_tour := y_tour a; y_cost := scaled c (y_cost a); y_pp := y_pp a |}
    | inl e => inl e end) (py_solve fuel o pp kopt n cm ord).
Proof.
  intros c fuel o pp kopt n cm ord Hc. unfold py_solve.
  assert (Fm : mrel (Sc c) cm (scaled_matrix c cm)) by (apply S_mat; reflexivity).
  rewrite <- (py_edges_rel (Sc c) (S0 c) (Slt c Hc) (Snan c) cm _ Fm).
  pose proof (py_arrays_rel (Sc c) (S0 c) n cm _ (py_edges cm) Fm) as A.
  destruct (py_tsp_arrays n cm _) as [[cost m]|], (py_tsp_arrays n (scaled_matrix c cm) _) as [[cost' m']|]; try contradiction; [|reflexivity].
  destruct A as (A & _). cbn [fst snd bind] in *.
  pose proof (py_run_tsp_rel (Sc c) (S0 c) (Sinf c) (Sadd c) (Sopp c) (Slt c Hc) (Snan c) (Smul c Hc) fuel o (scaled_options c o) n cm
    (scaled_matrix c cm) ord) as H.
  assert (O : opt_rel (Sc c) o (scaled_options c o)) by (repeat split; reflexivity). specialize (H O Fm).
  destruct (py_run_tsp fuel o n cm ord) as [[r| |]|], (py_run_tsp fuel (scaled_options c o) n (scaled_matrix c cm) ord) as [[r'| |]|];
    cbn in H; try contradiction; try reflexivity. cbn [bind].
  pose proof (py_finish_rel (Sc c) (S0 c) (Sinf c) (Sadd c) (Slt c Hc) (Snan c) (Sabs c Hc) pp kopt n cm _ cost cost' r r' Fm A H) as Q.
  destruct (py_finish pp kopt n cm cost r) as [a|], (py_finish pp kopt n (scaled_matrix c cm) cost' r') as [a'|]; cbn in Q; try contradiction; [|reflexivity].
  destruct Q as (Q1 & Q2 & Q3). destruct a, a'; cbn in *. unfold Sc in Q2. rewrite Q1, Q2, Q3. reflexivity.
Qed.

(** ** K-SAT *)

(** initial messages, library call, decisions and repair; [u vc sz cx ty] are the integer arrays of
    the call *)
Definition py_ksat (iters nv nc nu k pp : nat) (alpha thr : num) (flag post : bool) (f : formula) (u vc sz cx : list nat)
  (ty : list Z) (ord2 ord3 : list nat -> list nat) (metrics : list num) : option (list num * option ks_obj) :=
  m <- initial_messages nv f metrics ;;
  ext <- wrapper_ksat iters nv nc nu alpha flag u vc sz cx ty metrics (concat m) k ;;
  Some (ext, py_ksat_finish f ord2 ord3 thr pp post metrics ext).
Theorem C66_ksat : forall c iters nv nc nu k pp alpha thr flag post f u vc sz cx ty ord2 ord3 metrics, (0 < c)%Qc ->
  py_ksat iters nv nc nu k pp alpha (Fin (c * thr)%Qc) flag post f u vc sz cx ty ord2 ord3 (scaled_vector c metrics) =
  option_map (fun r => (scaled_vector c (fst r), snd r))
    (py_ksat iters nv nc nu k pp alpha (Fin thr) flag post f u vc sz cx ty ord2 ord3 metrics).
Proof.
  intros c iters nv nc nu k pp alpha thr flag post f u vc sz cx ty ord2 ord3 metrics Hc. unfold py_ksat.
  assert (Fm : lrel (Sc c) metrics (scaled_vector c metrics)) by (apply S_vec; reflexivity).
  pose proof (initial_messages_rel (Sc c) (S0 c) nv f _ _ Fm) as A.
  destruct (initial_messages nv f metrics) as [m|], (initial_messages nv f (scaled_vector c metrics)) as [m'|]; try contradiction; [|reflexivity].
  cbn [bind orel] in *.
  pose proof (wrapper_ksat_rel (Sc c) (S0 c) (Sinf c) (Sadd c) (Sopp c) (Slt c Hc) (Smul c Hc) (Sabs c Hc)
    iters nv nc nu alpha flag u vc sz cx ty _ _ _ _ k Fm (lrel_concat _ _ _ A)) as B.
  destruct (wrapper_ksat iters nv nc nu alpha flag u vc sz cx ty metrics (concat m) k) as [x|],
    (wrapper_ksat iters nv nc nu alpha flag u vc sz cx ty (scaled_vector c metrics) (concat m') k) as [x'|]; try contradiction; [|reflexivity].
  cbn [bind orel option_map fst snd] in *.
  rewrite (ksat_finish_rel (Sc c) (S0 c) (Sadd c) (Slt c Hc) (Snan c) (Snan_eq c) f ord2 ord3 (Fin thr) (Fin (c * thr)%Qc) pp post _ _ _ _ Fm B);
    [|reflexivity|reflexivity].
  apply S_vec in B. rewrite B. reflexivity.
Qed.

(** ** KC-MWM *)

(** Full statement: the library call gives the same result in the smaller unit. *)
Definition c66_kc (allowed : nat -> nat -> nat -> nat -> kc_inputs -> list nat -> bool -> num -> Prop) : Prop :=
  forall c iters D T P tr ms rt rp w nz sz mx flag alpha ext intr, (0 < c)%Qc -> (c <= 1)%Qc ->
  (forall inp, kc_process_inputs T D P mx rt tr w sz nz rp ms = Some inp -> allowed iters D T P inp sz flag alpha) ->
  wrapper_kc_mwm iters D T P tr ms rt rp w nz sz mx flag alpha = Some (ext, intr) ->
  wrapper_kc_mwm iters D T P (scaled_vector c tr) ms (scaled_vector c rt) (scaled_vector c rp) w nz sz mx flag alpha =
  Some (scaled_vector c ext, scaled_vector c intr).
(** It is false: messages to the teams are cut at the constant 1000000 in every unit. *)
Theorem C66_kc_refuted : ~ c66_kc (fun _ _ _ _ _ _ _ _ => True).
Proof.
  intros H.
  specialize (H (Q2Qc (1 # 2)) 1 1 1 1 [zn (-1)] [1] [zn (-1)] [zn 1200000] [1] [0] [1] 1 false (Fin 0)
    [zn 1000000] [zn 1199999] eq_refl).
  assert (C : (Q2Qc (1 # 2) <= 1)%Qc) by (unfold Qcle; cbn; unfold Qle; cbn; lia).
  specialize (H C (fun _ _ => I)).
  assert (E : wrapper_kc_mwm 1 1 1 1 [zn (-1)] [1] [zn (-1)] [zn 1200000] [1] [0] [1] 1 false (Fin 0) = Some ([zn 1000000], [zn 1199999])).
  { vm_compute. reflexivity. }
  specialize (H E). clear E. revert H. vm_compute. discriminate.
Qed.
(** What holds: as long as no message to a team reaches the constant in the larger unit. *)
Definition below_cap (iters D T P : nat) (inp : kc_inputs) (sz : list nat) (flag : bool) (alpha : num) : Prop :=
  forall t st, t <= iters -> for_up 0 t (kc_init T D P (kc_team2knapsack inp)) (kc_step flag alpha T D P inp sz) = Some st ->
    Forall (fun x => nlt x oric_cap = true) (kc_oric2team st).
Theorem C66_kc_partial : c66_kc below_cap.
Proof.
  intros c iters D T P tr ms rt rp w nz sz mx flag alpha ext intr Hc Hc1 B H. unfold wrapper_kc_mwm in *.
  assert (A : forall v, lrel (Sc c) v (scaled_vector c v)) by (intros; apply S_vec; reflexivity).
  pose proof (kc_inputs_rel (Sc c) (S0 c) T D P mx _ _ _ _ w sz nz _ _ ms (A rt) (A tr) (A rp)) as I.
  destruct (kc_process_inputs T D P mx rt tr w sz nz rp ms) as [inp|]; [|discriminate]. specialize (B inp eq_refl).
  destruct (kc_process_inputs T D P mx (scaled_vector c rt) _ w sz nz _ ms) as [inp'|]; [|contradiction]. cbn [bind orel] in *.
  unfold kc_iterate in *.
  destruct (for_up 0 iters _ _) as [st|] eqn:E in H; [|discriminate]. cbn [bind] in H.
  destruct (kc_run_rel (Sc c) (S0 c) (Sinf c) (Sadd c) (Sopp c) (Slt c Hc) (Smul c Hc) (Scap c Hc Hc1) flag alpha T D P inp inp' sz iters I B st E)
    as (st' & E' & Q). rewrite E'. cbn [bind]. destruct Q as (Q1 & Q2 & Q3 & Q4 & Q5 & Q6 & Q7 & Q8 & Q9 & Q10 & Q11).
  pose proof (extrinsic_output_team_rel (Sc c) (Sadd c) _ _ _ _ _ _ Q4 Q6 (V_zero (Sc c) (S0 c) T)) as X.
  destruct (extrinsic_output_team (kc_extr st) _ _) as [x|]; [|discriminate].
  destruct (extrinsic_output_team (kc_extr st') _ _) as [x'|]; [|contradiction]. cbn [bind orel] in *. injection H as <- <-.
  apply S_vec in X, Q11. rewrite X, Q11. reflexivity.
Qed.

(** ** Examples *)

(** five nodes, two rounds of added constraints or a repaired selection; unit 2/7 *)
Example C66_tsp_example :
  let c := Q2Qc (2 # 7) in
  (0 < c)%Qc /\
  match py_run_tsp 60 (opt 5 true 20 9) 5 (inj cm5b) (fun l => l) with
  | Some (Done r) => o_num_constraints r = 2 /\ map view (firstn 2 (o_extr r)) = [VFin (11 # 16); VFin (-31 # 8)] | _ => False end /\
  match py_run_tsp 60 (scaled_options c (opt 5 true 20 9)) 5 (scaled_matrix c (inj cm5b)) (fun l => l) with
  | Some (Done r) => o_num_constraints r = 2 /\ map view (firstn 2 (o_extr r)) = [VFin (11 # 56); VFin (-31 # 28)] | _ => False end.
Proof. split; [reflexivity|]. split; vm_compute; split; reflexivity. Qed.
Example C66_tsp_answer_example :
  let c := Q2Qc (2 # 7) in
  match py_solve 60 (scaled_options c no_aug) true true 5 (scaled_matrix c (inj cm5b)) (fun l => l) with
  | Some (inr a) => y_tour a = Some [1; 0; 4; 2; 3; 1] /\ view (y_cost a) = VFin (34 # 7) /\ y_pp a = true
  | _ => False end.
Proof. vm_compute. repeat split. Qed.
(** two clauses over five variables, four filtered iterations; unit 3/2 *)
Definition scale_f := {| y_nc := 2; y_conx := [[0; 1; 2]; [3; 2; 4]]; y_types := [[1; -1; 1]; [-1; -1; 1]]%Z; y_used := [0; 1; 2; 3; 4];
  y_vconx := [[0]; [0]; [0; 1]; [1]; [1]]; y_vtypes := [[1]; [-1]; [1; -1]; [-1]; [1]]%Z |}.
Definition scale_call (thr : num) (metrics : list num) :=
  option_map (fun r => (map view (fst r), option_map (fun o => (map view (k_hd o), k_flag o)) (snd r)))
    (py_ksat 4 5 2 5 3 2 (Fin (Q2Qc (1 # 2))) thr true true scale_f [0; 1; 2; 3; 4] [0; 0; 0; 1; 1; 1] [1; 1; 2; 1; 1] [0; 1; 2; 3; 2; 4]
       [1; -1; 1; -1; -1; 1]%Z (fun l => l) (fun l => l) metrics).
Example C66_ksat_example :
  scale_call (zn (-2)) (map zn [4; 2; 1; -3; 2]%Z)
    = Some ([VFin 0; VFin (37 # 16); VFin (15 # 8); VFin 0; VFin 0], Some ([VFin 0; VFin 0; VFin 0; VFin 1; VFin 0], true)) /\
  scale_call (zn (-3)) (scaled_vector (Q2Qc (3 # 2)) (map zn [4; 2; 1; -3; 2]%Z))
    = Some ([VFin 0; VFin (111 # 32); VFin (45 # 16); VFin 0; VFin 0], Some ([VFin 0; VFin 0; VFin 0; VFin 1; VFin 0], true)).
Proof. split; vm_compute; reflexivity. Qed.

(** the departments, teams and projects of C14 *)
Definition scale_kc (t : num -> num) :=
  let W := [[2; 1; 0]; [0; 1; 2]] in
  let R := map (map t) (map (map zn) [[-4; -1; -2]; [-3; -5; -1]]%Z) in
  let reward := map t (map zn [-1; -2; -3]%Z) in
  let nz := py_nonzero W in
  option_map (fun r => (map view (fst r), map view (snd r)))
   (wrapper_kc_mwm 3 2 3 2 (concat (py_team_messages W reward)) [3; 2] reward (concat R) (concat W) (concat (py_pad nz))
     (map (@length nat) nz) (list_max (map (@length nat) nz)) true (Fin (Q2Qc (1 # 2)))).
Lemma forall_cap X : match X with Some st => forallb (fun x => nlt x oric_cap) (kc_oric2team st) | None => true end = true ->
  forall st, X = Some st -> Forall (fun x => nlt x oric_cap = true) (kc_oric2team st).
Proof. intros H st ->. apply Forall_forall. rewrite forallb_forall in H. exact H. Qed.
Example C66_kc_example :
  let W := [[2; 1; 0]; [0; 1; 2]] in
  let R := map (map zn) [[-4; -1; -2]; [-3; -5; -1]]%Z in
  let reward := map zn [-1; -2; -3]%Z in
  let nz := py_nonzero W in
  (forall inp, kc_process_inputs 3 2 2 (list_max (map (@length nat) nz)) reward (concat (py_team_messages W reward)) (concat W)
      (map (@length nat) nz) (concat (py_pad nz)) (concat R) [3; 2] = Some inp ->
    below_cap 3 2 3 2 inp (map (@length nat) nz) true (Fin (Q2Qc (1 # 2)))) /\
  scale_kc (fun x => x) = Some ([VFin (-3); VFin (-23 # 8); VFin 7],
          [VFin (-4); VFin (15 # 2); VFin 4; VFin (39 # 8); VFin (-39 # 8); VFin (51 # 8)]) /\
  scale_kc (scaled (Q2Qc (1 # 3))) = Some ([VFin (-1); VFin (-23 # 24); VFin (7 # 3)],
          [VFin (-4 # 3); VFin (5 # 2); VFin (4 # 3); VFin (13 # 8); VFin (-13 # 8); VFin (17 # 8)]).
Proof.
  cbv zeta. split; [|split; vm_compute; reflexivity].
  intros inp E t st Ht. vm_compute in E. apply (f_equal (fun o => match o with Some i => i | None => inp end)) in E. cbn beta iota in E. subst inp.
  apply forall_cap. do 4 (destruct t as [|t]; [vm_compute; reflexivity|]). lia.
Qed.

Print Assumptions C66_tsp.
Print Assumptions C66_tsp_answer.
Print Assumptions C66_ksat.
Print Assumptions C66_kc_refuted.
Print Assumptions C66_kc_partial.
