(** * Property C98: small changes of the inputs change the outputs little. *)
From Coq Require Import Permutation.
From Verif Require Import Arr ArrFacts MinSum NumFacts SpecRun SpecLiterals SpecWithin SpecGraph SpecCover M_InOut M_Runs M_Tsp_Run M_Tsp_Py M_Ksat_Py P_InOut P_Runs P_Schedule.
From Verif Require Import P_Ksat_Py P_Ksat_Gen P_Kc_Range P_Ksat_Range T_Schedule T_Ksat_Py P_Ksat_Opt T_Tsp_Call T_Tsp_Sched P_Tsp_Py T_Tsp_Assign T_Tsp_Sym P_Stable T_Ksat_Pure.
From Verif Require Import P_Tsp_Assign.
From Verif Require T_Tsp_Range.
From Verif Require Import Spec Num.
Local Open Scope nat_scope.

(** ** K-SAT *)
(** Full statement: if two runs on the same formula start from metrics and messages that differ by at most [e] and no variable
    is in more than [d + 1] clauses, the outputs of a variable after [n] iterations differ by at most
    [m (1 + d + ... + d^(n-1)) e], where [m] is the number of its clauses. *)
Theorem C98_ksat :
  forall (iters nv nc k d : nat) (used : list nat) (metrics metrics' : list Qc) (conx : list (list nat))
         (types : list (list Z)) (V0 V0' : list (list Qc)) (varconx : list (list nat)) (flag : bool) (alpha e : Qc),
    2 <= k -> length metrics = nv -> length metrics' = nv -> shape nc k conx -> shape nc k types -> shape nc nv V0 -> shape nc nv V0' ->
    (forall c cx tys, nth_error conx c = Some cx -> nth_error types c = Some tys -> clause_wf nv k cx tys) ->
    length varconx = nv -> Forall (fun x => x < nv) used ->
    (forall x l, nth_error varconx x = Some l -> NoDup l /\ forall c, In c l <-> c < nc /\ In x (nth c conx [])) ->
    (forall j, j < nv -> ~ In j used -> nth j varconx [] = []) ->
    (flag = true -> (0 <= alpha /\ alpha <= 1)%Qc) ->
    (forall x l, nth_error varconx x = Some l -> length l <= S d) -> (0 <= e)%Qc ->
    (forall x, x < nv -> within e (nth x metrics 0%Qc) (nth x metrics' 0%Qc)) ->
    (forall c x, c < nc -> x < nv -> within e (qat V0 c x) (qat V0' c x)) ->
    exists ext ext' : list Qc,
      wrapper_ksat iters nv nc (length used) (Fin alpha) flag used (concat varconx)
        (map (@length nat) varconx) (concat conx) (concat types) (map Fin metrics) (concat (inj V0)) k = Some (map Fin ext) /\
      wrapper_ksat iters nv nc (length used) (Fin alpha) flag used (concat varconx)
        (map (@length nat) varconx) (concat conx) (concat types) (map Fin metrics') (concat (inj V0')) k = Some (map Fin ext') /\
      length ext = nv /\ length ext' = nv /\
      forall x, x < nv -> within (qn (length (nth x varconx [])) * (qn (powers d iters) * e)) (nth x ext 0%Qc) (nth x ext' 0%Qc).
Proof.
  intros iters nv nc k d used metrics metrics' conx types V0 V0' varconx flag alpha e Hk Hm Hm' Hc Ht HV HV' Hwf Hv Hu Hin Hun Hfl Hd He Hme Hve.
  assert (Hin' : forall x l, nth_error varconx x = Some l -> NoDup l /\ Forall (fun c => c < nc) l).
  { intros x l G. destruct (Hin x l G) as [N I]. split; auto. apply Forall_forall. intros c Ic. apply I, Ic. }
  destruct (C49_ksat_run iters nv nc k used metrics conx types V0 varconx flag alpha)
    as (ext & V & D & M & E & L & E0 & HT & HX); auto.
  destruct (C49_ksat_run iters nv nc k used metrics' conx types V0' varconx flag alpha)
    as (ext' & V' & D' & M' & E' & L' & E0' & HT' & HX'); auto.
  exists ext, ext'. do 4 (split; [assumption|]). intros x Hx. rewrite HX, HX' by auto.
  destruct iters as [|n]; cbn [Nat.eqb].
  - change (powers d 0) with 0. rewrite qn_0. unfold within. split; qlra.
  - replace (S n - 1) with n by lia. replace (S n) with (n + 1) by lia.
    apply (total_within nv nc k d metrics metrics' conx types V0 V0' varconx flag alpha e) with (V := V) (D := D) (V' := V') (D' := D'); auto.
    + destruct Hc; auto.
    + destruct Ht; auto.
Qed.

(** Decisions of complete calls: a variable whose value is further from the threshold than the change can reach is decided
    the same way. *)
Theorem C98_ksat_decision :
  forall (nv k d : nat) (sol : list bool) (ord ord2 ord3 : list nat -> list nat) (draws : list draw)
         (metrics metrics' : list Qc) (iters : nat) (flag : bool) (alpha theta e : Qc) (pp : nat),
    2 <= k -> length sol = nv -> Forall (valid_draw nv k) draws -> length metrics = nv -> length metrics' = nv ->
    (forall l, Permutation l (ord l)) -> (forall l, Permutation l (ord2 l)) -> (forall l, Permutation l (ord3 l)) ->
    (flag = true -> (0 <= alpha /\ alpha <= 1)%Qc) -> (0 <= e)%Qc ->
    (forall x, x < nv -> within e (nth x metrics 0%Qc) (nth x metrics' 0%Qc)) ->
    exists f ext ext' o o',
      py_ksat_run nv k sol ord draws (map Fin metrics) iters flag (Fin alpha) (Fin theta) false pp ord2 ord3
        = Some (f, map Fin ext, o) /\
      py_ksat_run nv k sol ord draws (map Fin metrics') iters flag (Fin alpha) (Fin theta) false pp ord2 ord3
        = Some (f, map Fin ext', o') /\
      let far v := let reach := ((qn (length (nth v (y_vconx f) []) * powers d iters) + 1) * e)%Qc in
        (theta + reach < nth v ext 0 + nth v metrics 0 \/ nth v ext 0 + nth v metrics 0 + reach <= theta)%Qc in
      ((forall x l, nth_error (y_vconx f) x = Some l -> length l <= S d) ->
       (forall v, In v (y_used f) -> far v -> nth_error (k_hd o) v = nth_error (k_hd o') v) /\
       ((forall v, In v (y_used f) -> far v) -> k_flag o = k_flag o')).
Proof.
  intros nv k d sol ord ord2 ord3 draws metrics metrics' iters flag alpha theta e pp Hk Ls Hd Lm Lm' P1 P2 P3 Ha He Hme.
  destruct (C47_ksat_call nv k sol ord ord2 ord3 draws metrics iters flag alpha (Fin theta) false pp) as
    (f & ext & intr & o & E & W & Li & Le & Hi & Hhd & _ & _ & Fl); auto.
  destruct (C47_ksat_call nv k sol ord ord2 ord3 draws metrics' iters flag alpha (Fin theta) false pp) as
    (f' & ext' & intr' & o' & E' & W' & Li' & Le' & Hi' & Hhd' & _ & _ & Fl'); auto.
  assert (X : forall mt f ext o, py_ksat_run nv k sol ord draws (map Fin mt) iters flag (Fin alpha) (Fin theta) false pp ord2 ord3
        = Some (f, map Fin ext, o) -> create_formula nv k sol ord draws = Some f /\ exists m, initial_messages nv f (map Fin mt) = Some m /\
    wrapper_ksat iters nv (y_nc f) (length (y_used f)) (Fin alpha) flag (y_used f) (concat (y_vconx f))
      (map (@length nat) (y_vconx f)) (concat (y_conx f)) (concat (y_types f)) (map Fin mt) (concat m) k = Some (map Fin ext)).
  { clear. intros mt f ext o E. unfold py_ksat_run in E. destruct (create_formula nv k sol ord draws) as [f0|]; [|discriminate]. cbn [bind] in E.
    destruct (initial_messages nv f0 (map Fin mt)) as [m|] eqn:Em; [|discriminate]. cbn [bind] in E.
    destruct (wrapper_ksat _ _ _ _ _ _ _ _ _ _ _ _ _ _) as [e0|] eqn:Ew; [|discriminate]. cbn [bind] in E.
    repeat match type of E with context [bind ?a _] => destruct a; [|discriminate]; cbn [bind] in E end.
    injection E as <- -> _. split; [reflexivity|]. exists m. auto. }
  destruct (X _ _ _ _ E) as (Ef & m & Em & Ew). destruct (X _ _ _ _ E') as (Ef' & m' & Em' & Ew'). clear X.
  assert (f' = f) by congruence. subst f'.
  exists f, ext, ext', o, o'. split; [exact E|]. split; [exact E'|]. cbv zeta. intros Hdeg.
  destruct (call_basics nv k sol ord ord2 ord3 draws metrics theta f Hk Ls Hd Lm P1 P2 P3 Ef) as
    (ND & M & (EM & Lc & Sc & St & SM & Wf & Lv & Hu & Hvar & Hun & _) & _).
  destruct (C48_initial_messages nv f metrics W Lm) as (M1 & EM1 & SM1 & A1 & A2).
  destruct (C48_initial_messages nv f metrics' W Lm') as (M2 & EM2 & SM2 & B1 & B2).
  rewrite Em in EM1. injection EM1 as ->. rewrite Em' in EM2. injection EM2 as ->.
  assert (Rw : forall c v, c < y_nc f -> (exists t, in_clause f c v t) \/ ~ (exists t, in_clause f c v t)).
  { intros c v Hc. destruct (in_dec Nat.eq_dec v (nth c (y_conx f) [])) as [I|I].
    - left. apply In_nth_error in I as [j Gj]. destruct (nth_error (y_conx f) c) as [cx|] eqn:G1; [|apply nth_error_None in G1; lia].
      rewrite (nth_error_nth _ _ _ G1) in Gj. destruct (c_rows _ _ W _ _ G1) as (ts & T1 & T2).
      destruct (nth_error ts j) as [t|] eqn:Gt.
      + exists t, j. unfold get2, get. rewrite G1, T1. auto.
      + apply nth_error_None in Gt. assert (j < length cx) by (apply nth_error_Some; congruence). lia.
    - right. intros (t & j & J1 & _). apply I. unfold get2, get in J1. destruct (nth_error (y_conx f) c) as [cx|] eqn:G1; [|discriminate].
      rewrite (nth_error_nth _ _ _ G1). eapply nth_error_In; eauto. }
  destruct (C98_ksat iters nv (y_nc f) k d (y_used f) metrics metrics' (y_conx f) (y_types f) M1 M2 (y_vconx f) flag alpha e)
    as (x1 & x2 & Y1 & Y2 & _ & _ & Wi); auto.
  { intros x l G. destruct (Hvar x l G) as [N1 N2]. split; [exact N1|]. intros c. rewrite N2. split; [|intros [_ ?]; auto]. intros Ic.
    split; [|exact Ic]. destruct (Nat.lt_ge_cases c (y_nc f)) as [|Ge]; auto. rewrite nth_overflow in Ic by lia. destruct Ic. }
  { intros c x Hc Hx. destruct (Rw c x Hc) as [[t I]|N].
    - rewrite (A1 _ _ _ I), (B1 _ _ _ I). auto.
    - rewrite A2, B2 by auto. unfold within. split; qlra. }
  rewrite Ew in Y1. injection Y1 as Q1. apply fins_inj in Q1. subst x1.
  rewrite Ew' in Y2. injection Y2 as Q2. apply fins_inj in Q2. subst x2.
  rewrite (Hhd (or_introl eq_refl)) in *. rewrite (Hhd' (or_introl eq_refl)) in *.
  assert (Same : forall v, In v (y_used f) ->
    (theta + (qn (length (nth v (y_vconx f) []) * powers d iters) + 1) * e < nth v ext 0 + nth v metrics 0 \/
     nth v ext 0 + nth v metrics 0 + (qn (length (nth v (y_vconx f) []) * powers d iters) + 1) * e <= theta)%Qc ->
    nth_error (map (py_decide (Fin theta)) (map Fin intr)) v = nth_error (map (py_decide (Fin theta)) (map Fin intr')) v).
  { intros v Iv Far. assert (Hv : v < nv) by (rewrite Forall_forall in Hu; auto).
    rewrite !map_map, !nth_error_map, (nth_error_nth' intr 0%Qc), (nth_error_nth' intr' 0%Qc) by lia. cbn [option_map]. f_equal.
    rewrite Hi, Hi' by auto. rewrite (proj2 (mem_In v (y_used f)) Iv). destruct (Wi v Hv) as [W1 W2]. destruct (Hme v Hv) as [U1 U2].
    rewrite qn_mul in Far. set (z := (qn (length (nth v (y_vconx f) [])) * (qn (powers d iters) * e))%Qc) in *.
    assert (Ez : ((qn (length (nth v (y_vconx f) [])) * qn (powers d iters) + 1) * e = z + e)%Qc) by (unfold z; ring). rewrite Ez in Far.
    unfold py_decide, nleb, ngt, nlt.
    destruct (qltb_spec theta (nth v ext 0 + nth v metrics 0))%Qc, (qltb_spec theta (nth v ext' 0 + nth v metrics' 0))%Qc; try reflexivity;
      exfalso; destruct Far; qlra. }
  split; [exact Same|]. intros All.
  assert (Cl : forall c, clause_true f (map (py_decide (Fin theta)) (map Fin intr)) c <-> clause_true f (map (py_decide (Fin theta)) (map Fin intr')) c).
  { intros c. unfold clause_true, lit_true. split; intros (v & t & I & x & G & H); exists v, t; split; auto; exists x; split; auto;
      pose proof (c_used _ _ W _ _ _ I) as Iv; rewrite ?(Same v Iv (All v Iv)) in *; auto. }
  assert (B : k_flag o = true <-> k_flag o' = true).
  { rewrite Fl, Fl'. split; intros H c Hc; apply Cl; auto. }
  destruct B as [Z1 Z2]. destruct (k_flag o), (k_flag o'); try reflexivity; [discriminate (Z1 eq_refl)|discriminate (Z2 eq_refl)].
Qed.

(** ** The first TSP stage *)
(** Full statement: costs that differ by at most [e] give values that differ by at most [2 n e] after [n] iterations, and an
    edge whose value plus cost is further than [(2 n + 1) e] from the threshold is selected in both or in neither. *)
Theorem C98_tsp :
  forall (o : tsp_options) (n : nat) (C C' : list (list Qc)) (ord ord' : list nat -> list nat) (p p' : tsp_params) (st st' : tsp_state) (a th e : Qc),
    3 <= n -> cost_matrix_ok n C -> cost_matrix_ok n C' -> q_alpha o = Fin a -> (q_filt o = true -> (0 <= a /\ a <= 1)%Qc) ->
    q_thr o = Fin th -> (forall l, Permutation (ord l) l) -> (forall l, Permutation (ord' l) l) ->
    first_stage o n C ord p st -> first_stage o n C' ord' p' st' -> (0 <= e)%Qc ->
    (forall u v, u < n -> v < n -> u <> v -> within e (qat C u v) (qat C' u v)) ->
    forall u v, u < n -> v < n -> u <> v ->
      exists x x', value_is p st u v x /\ value_is p' st' u v x' /\ within (qn (2 * q_iters o) * e) x x' /\
        let reach := (qn (2 * q_iters o + 1) * e)%Qc in
        ((th + reach < x + qat C u v \/ x + qat C u v + reach <= th)%Qc ->
         In (u, v) (r_selected (t_sol st)) <-> In (u, v) (r_selected (t_sol st'))).
Proof.
  intros o n C C' ord ord' p p' st st' a th e Hn HC HC' Ha Hf Hth Po Po' F F' He Hw u v Hu Hv N.
  destruct (stage_values o n C ord p st a Hn HC Ha Po F) as (R & K & DR & DK & S & _ & _ & Vs & Is).
  destruct (stage_values o n C' ord' p' st' a Hn HC' Ha Po' F') as (R' & K' & DR' & DK' & S' & _ & _ & Vs' & Is').
  exists (R (q_iters o) u v + K (q_iters o) u v)%Qc, (R' (q_iters o) u v + K' (q_iters o) u v)%Qc.
  split; [apply Vs; auto|]. split; [apply Vs'; auto|].
  destruct (tsp_within n (qat C) (qat C') (effective (q_filt o) a) R K DR DK R' K' DR' DK' e) with (t := q_iters o) (u := u) (v := v)
    as ((X1 & X2) & (Y1 & Y2)); auto.
  { unfold effective. destruct (q_filt o); cbn [andb]; [destruct (negb _); [auto|]|]; split; qlra. }
  assert (E2 : (qn (2 * q_iters o) * e)%Qc = (qn (q_iters o) * e + qn (q_iters o) * e)%Qc).
  { rewrite qn_mul. change (qn 2) with (1 + 1)%Qc. ring. }
  assert (E3 : (qn (2 * q_iters o + 1) * e)%Qc = (qn (2 * q_iters o) * e + e)%Qc) by (rewrite qn_add, qn_1; ring).
  split; [rewrite E2; unfold within; split; qlra|]. cbv zeta. rewrite E3, E2, Is, Is', Hth. unfold ngt, nlt.
  destruct (Hw u v Hu Hv N). intros Far.
  destruct (qltb_spec th (R (q_iters o) u v + K (q_iters o) u v + qat C u v)), (qltb_spec th (R' (q_iters o) u v + K' (q_iters o) u v + qat C' u v));
    try (split; intros (? & ? & ? & ?); auto; discriminate); exfalso; destruct Far; qlra.
Qed.

(** The factor [2 n] is exact: three cities, one way round dearer by [e] an edge, the other cheaper by [e]. *)
Theorem C98_tsp_attained :
  forall (o : tsp_options) (ord ord' : list nat -> list nat) (p p' : tsp_params) (st st' : tsp_state) (a lo hi e : Qc),
    lo <> 0%Qc -> hi <> 0%Qc -> (lo - e)%Qc <> 0%Qc -> (hi + e)%Qc <> 0%Qc ->
    q_alpha o = Fin a -> q_filt o = false \/ a = 0%Qc ->
    (forall l, Permutation (ord l) l) -> (forall l, Permutation (ord' l) l) ->
    first_stage o 3 (T_Tsp_Range.round3 lo hi) ord p st -> first_stage o 3 (T_Tsp_Range.round3 (lo - e) (hi + e)) ord' p' st' ->
    forall u, u < 3 -> exists x x', value_is p st u ((u + 1) mod 3) x /\ value_is p' st' u ((u + 1) mod 3) x' /\
      (x' - x = qn (2 * q_iters o) * e)%Qc.
Proof.
  intros o ord ord' p p' st st' a lo hi e N1 N2 N3 N4 Ha Hf Po Po' F F' u Hu.
  destruct (T_Tsp_Range.C95_attained o ord p st a lo hi N1 N2 Ha Hf Po F u Hu) as [X _].
  destruct (T_Tsp_Range.C95_attained o ord' p' st' a (lo - e) (hi + e) N3 N4 Ha Hf Po' F' u Hu) as [X' _].
  eexists _, _. split; [exact X|]. split; [exact X'|].
  assert (U : forall t, (T_Tsp_Range.upper (lo - e) (hi + e) t - T_Tsp_Range.upper lo hi t = qn t * e)%Qc).
  { intros t. unfold T_Tsp_Range.upper. rewrite (Nat.div_mod t 2) at 5 by lia. rewrite qn_add, qn_mul. change (qn 2) with (1 + 1)%Qc.
    rewrite <- Nat.bit0_mod, Nat.bit0_odd, <- Nat.negb_even. destruct (Nat.even t); cbn [negb Nat.b2n]; rewrite ?qn_0, ?qn_1; ring. }
  specialize (U (q_iters o)). rewrite qn_mul. change (qn 2) with (1 + 1)%Qc. qlra.
Qed.

(** ** Examples *)
(** The formula of [C97_example]: with metrics that differ from -3, -4, 1, 2 by at most a tenth, three iterations always end with
    the same decisions. *)
Example C98_ksat_example : forall metrics',
  length metrics' = 4 -> (forall x, x < 4 -> within (Q2Qc (1 # 10)) (nth x (map zq [-3; -4; 1; 2]%Z) 0%Qc) (nth x metrics' 0%Qc)) ->
  exists f ext o,
    py_ksat_run 4 2 [true; false; true; false] (fun l => l) pure_draws (map Fin metrics') 3 true (Fin (Q2Qc (1 # 2))) n0 false 2
      (fun l => l) (fun l => l) = Some (f, ext, o) /\
    (forall v, v < 4 -> nth_error (k_hd o) v = nth_error [n1; n1; n0; n0] v) /\ k_flag o = true.
Proof.
  intros metrics' L H.
  destruct (C98_ksat_decision 4 2 2 [true; false; true; false] (fun l => l) (fun l => l) (fun l => l) pure_draws (map zq [-3; -4; 1; 2]%Z) metrics'
    3 true (Q2Qc (1 # 2)) 0%Qc (Q2Qc (1 # 10)) 2) as (f & ext & ext' & o & o' & E & E' & X);
    [lia|reflexivity|exact pure_draws_valid|reflexivity|exact L|reflexivity|reflexivity|reflexivity|intros _; split; discriminate|discriminate|exact H|].
  exists f, (map Fin ext'), o'. split; [exact E'|].
  assert (Q : option_map (fun r => let '(f, ext, o) := r in (y_vconx f, y_used f, map view ext, k_hd o, k_flag o)) (pure_call (Fin (Q2Qc (1 # 2))) 3)
    = Some ([[0; 1; 3]; [1; 2]; [2; 3]; [0]], [3; 1; 0; 2], [VFin (-65 # 8); VFin 0; VFin (7 # 2); VFin 0], [n1; n1; n0; n0], true))
    by (vm_compute; reflexivity).
  unfold pure_call in Q. change (map zn [-3; -4; 1; 2]%Z) with (map Fin (map zq [-3; -4; 1; 2]%Z)) in Q.
  change n0 with (Fin 0%Qc) in Q at 1. rewrite E in Q. cbn [option_map] in Q. injection Q as Qv Qu Qe Qh Qf.
  destruct X as [X1 X2].
  { rewrite Qv. intros x l G. do 4 (destruct x as [|x]; [injection G as <-; cbn; lia|]). destruct x; discriminate. }
  assert (Ex : ext = [Q2Qc (-65 # 8); 0; Q2Qc (7 # 2); 0]%Qc).
  { clear -Qe. destruct ext as [|a [|b [|c [|d [|? ?]]]]]; try discriminate Qe. injection Qe as A B C D.
    repeat f_equal; apply Qc_is_canon; rewrite ?A, ?B, ?C, ?D; reflexivity. }
  clear E E'. assert (Far : forall v, In v (y_used f) ->
    let reach := ((qn (length (nth v (y_vconx f) []) * powers 2 3) + 1) * Q2Qc (1 # 10))%Qc in
    (0 + reach < nth v ext 0 + nth v (map zq [-3; -4; 1; 2]%Z) 0 \/ nth v ext 0 + nth v (map zq [-3; -4; 1; 2]%Z) 0 + reach <= 0)%Qc).
  { rewrite Qu, Qv, Ex. intros v I. cbn in I. destruct I as [<-|[<-|[<-|[<-|[]]]]]; [left|right|right|left]; vm_compute; auto; discriminate. }
  rewrite <- Qf. split; [|symmetry; apply X2, Far].
  intros v Hv. rewrite <- Qh. symmetry.
  assert (Iv : In v (y_used f)) by (rewrite Qu; do 4 (destruct v as [|v]; [cbn; auto|]); lia). apply X1; [exact Iv|apply Far, Iv].
Qed.

Print Assumptions C98_ksat.
Print Assumptions C98_ksat_decision.
Print Assumptions C98_tsp.
Print Assumptions C98_tsp_attained.
