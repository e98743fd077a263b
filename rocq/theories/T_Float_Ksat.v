(** * K-SAT calls in floating-point arithmetic: C73. *)
From Verif Require Import SpecRound P_Round P_Float P_Float_Tsp P_Float_Ksat T_Float_Tsp.
From Verif Require Import Num NumFacts Arr ArrFacts Spec M_InOut T_InOut M_Runs M_Ksat_Py M_Float.
Local Open Scope nat_scope.

(** a list of whole multiples of 2^e *)
Definition grid1 (e : Z) (l : list Z) : list num := map (fun z => Fin (zq z * pow2 e)%Qc) l.
(** the arguments of the library call *)
Definition formula_ok (nv nc k : nat) (conx : list (list nat)) (types : list (list Z)) (varconx : list (list nat))
  (used : list nat) : Prop :=
  shape nc k conx /\ shape nc k types /\ Forall (Forall sign) types /\
  length varconx = nv /\ Forall (fun l => length l <= nc) varconx /\
  (forall j, j < nv -> ~ In j used -> nth j varconx [] = []).

(** Full statement: with metrics that are whole multiples of a power of two and without filtering, a
    K-SAT call in floating-point arithmetic returns what the exact call returns, as long as the
    messages from variables to clauses of the exact run stay within [B] units and
    [2 k (nc + 1) + 1] times [B] fits into the significand. *)
Theorem C73_ksat : forall prec emin emax rnd e B iters nv nc k used metrics conx types M varconx flag alpha,
  keeps (binary prec emin emax) rnd -> (emin <= e <= emax)%Z ->
  (flag = false \/ alpha = n0) ->
  formula_ok nv nc k conx types varconx used -> length metrics = nv -> shape nc nv M ->
  Forall (fun z => (Z.abs z <= B)%Z) metrics -> at_most B M -> (0 <= B)%Z ->
  (forall t st, t <= iters ->
     for_up 0 t (ksat_init nv nc (grid e M)) (ksat_step flag alpha nv nc k
       {| ks_used := used; ks_metrics := grid1 e metrics; ks_conx := conx; ks_type := types;
          ks_var2clause := grid e M; ks_varconx := varconx |}) = Some st ->
     Forall (Forall (small (pow2 e) B)) (kst_var st)) ->
  ((2 * Z.of_nat k * (Z.of_nat nc + 1) + 1) * B < 2 ^ prec)%Z ->
  wrapper_ksat_f rnd iters nv nc (length used) alpha flag used (concat varconx) (map (@length nat) varconx)
    (concat conx) (concat types) (grid1 e metrics) (concat (grid e M)) k
  = wrapper_ksat iters nv nc (length used) alpha flag used (concat varconx) (map (@length nat) varconx)
    (concat conx) (concat types) (grid1 e metrics) (concat (grid e M)) k.
Proof.
  intros prec emin emax rnd e B iters nv nc k used metrics conx types M varconx flag alpha
    Hr He Hf (S1 & S2 & S3 & S4 & S5 & S6) Lm SM Hm HM HB Hw L.
  unfold wrapper_ksat_f, wrapper_ksat.
  rewrite C26_ksat_inputs; auto; [|unfold grid1; rewrite map_length; exact Lm|].
  2:{ destruct SM as [A1 A2]. split; unfold grid; [rewrite map_length; exact A1|]. apply Forall_map.
      eapply Forall_impl; [|exact A2]. intros r H. rewrite map_length. exact H. }
  cbn [bind]. rewrite (ksat_run_same (pow2 e) (2 ^ prec - 1) rnd) with (C := B) (D := nc) (B := B); auto.
  - apply exact_binary with (emin := emin) (emax := emax); assumption.
  - unfold unfiltered. destruct Hf as [-> | ->]; [reflexivity|]. destruct flag; reflexivity.
  - cbn [ks_metrics]. unfold grid1. apply Forall_map. eapply Forall_impl; [|exact Hm]. intros z Hz. exists z. auto.
  - apply grid_on. exact HM.
  - lia.
  - apply pow2_pos.
  - unfold per_round. nia.
  - assert (0 <= Z.of_nat k * B)%Z by nia. nia.
Qed.

(** Without a hypothesis on the run: each iteration multiplies the bound by at most
    [2 k (nc + 1) + 1]. *)
Theorem C73_ksat_few_iterations :
  forall prec emin emax rnd e C iters nv nc k used metrics conx types M varconx flag alpha,
  keeps (binary prec emin emax) rnd -> (emin <= e <= emax)%Z ->
  (flag = false \/ alpha = n0) ->
  formula_ok nv nc k conx types varconx used -> length metrics = nv -> shape nc nv M ->
  Forall (fun z => (Z.abs z <= C)%Z) metrics -> at_most C M -> (0 <= C)%Z ->
  ((2 * Z.of_nat k * (Z.of_nat nc + 1) + 1) ^ Z.of_nat iters * C < 2 ^ prec)%Z ->
  wrapper_ksat_f rnd iters nv nc (length used) alpha flag used (concat varconx) (map (@length nat) varconx)
    (concat conx) (concat types) (grid1 e metrics) (concat (grid e M)) k
  = wrapper_ksat iters nv nc (length used) alpha flag used (concat varconx) (map (@length nat) varconx)
    (concat conx) (concat types) (grid1 e metrics) (concat (grid e M)) k.
Proof.
  intros prec emin emax rnd e C iters nv nc k used metrics conx types M varconx flag alpha
    Hr He Hf (S1 & S2 & S3 & S4 & S5 & S6) Lm SM Hm HM HC L.
  unfold wrapper_ksat_f, wrapper_ksat.
  rewrite C26_ksat_inputs; auto; [|unfold grid1; rewrite map_length; exact Lm|].
  2:{ destruct SM as [A1 A2]. split; unfold grid; [rewrite map_length; exact A1|]. apply Forall_map.
      eapply Forall_impl; [|exact A2]. intros r H. rewrite map_length. exact H. }
  cbn [bind]. rewrite (ksat_short_same (pow2 e) (2 ^ prec - 1) rnd) with (C := C) (D := nc); auto.
  - apply exact_binary with (emin := emin) (emax := emax); assumption.
  - unfold unfiltered. destruct Hf as [-> | ->]; [reflexivity|]. destruct flag; reflexivity.
  - cbn [ks_metrics]. unfold grid1. apply Forall_map. eapply Forall_impl; [|exact Hm]. intros z Hz. exists z. auto.
  - apply grid_on. exact HM.
  - unfold per_round. lia.
  - intros Hi. fold (per_round k nc) in L. set (G := (per_round k nc + 1)%Z) in *.
    assert (G1 : (1 <= G)%Z) by (unfold G, per_round; nia).
    replace (Z.of_nat iters) with (Z.succ (Z.of_nat (iters - 1))) in L by lia.
    rewrite Z.pow_succ_r in L by lia.
    pose proof (Z.pow_pos_nonneg G (Z.of_nat (iters - 1)) ltac:(lia) ltac:(lia)) as P.
    set (X := (G ^ Z.of_nat (iters - 1) * C)%Z) in *. assert (0 <= X)%Z by (unfold X; nia).
    assert (E : (G * G ^ Z.of_nat (iters - 1) * C = G * X)%Z) by (unfold X; ring). rewrite E in L.
    unfold G, per_round in L. assert (0 <= Z.of_nat k * X)%Z by nia. nia.
Qed.

(** Larger metrics: three clauses x or a, x or b, not x or c with metrics 1 for x, 2^54 for a and c,
    2 for b.  The exact messages to x add up to -2; in double precision 2^54 + 2 is 2^54, they add
    up to 0, and x is decided the other way. *)
Definition decisions (thr : num) (metrics : list num) (ext : option (list num)) : option (list num) :=
  option_map (fun x => map (fun p => py_decide thr (nadd (fst p) (snd p))) (combine x metrics)) ext.
Definition conx3 := [[0; 1]; [0; 2]; [0; 3]].
Definition types3 := [[1; 1]; [1; 1]; [-1; 1]]%Z.
Definition varconx3 := [[0; 1; 2]; [0]; [1]; [2]].
Definition metrics3 (b : Z) := [1; b; 2; b]%Z.
Definition messages3 (b : Z) := [[1; b; 0; 0]; [1; 0; 2; 0]; [1; 0; 0; b]]%Z.
Definition call3 (b : Z) (iters : nat) := wrapper_ksat iters 4 3 4 n0 false [0; 1; 2; 3] (concat varconx3)
  (map (@length nat) varconx3) (concat conx3) (concat types3) (grid1 0 (metrics3 b)) (concat (grid 0 (messages3 b))) 2.
Definition call3_f (rnd : Qc -> num) (b : Z) (iters : nat) :=
  wrapper_ksat_f rnd iters 4 3 4 n0 false [0; 1; 2; 3] (concat varconx3)
  (map (@length nat) varconx3) (concat conx3) (concat types3) (grid1 0 (metrics3 b)) (concat (grid 0 (messages3 b))) 2.
Lemma formula3_ok : formula_ok 4 3 2 conx3 types3 varconx3 [0; 1; 2; 3].
Proof.
  split; [split; repeat constructor|]. split; [split; repeat constructor|].
  split; [repeat (apply Forall_cons || apply Forall_nil); unfold sign; auto|]. split; [reflexivity|]. split; [repeat constructor|].
  intros j Hj Hn. exfalso. apply Hn. cbn. lia.
Qed.
Definition thr0 : num := Fin (Q2Qc (-1 # 10000)).
Theorem C73_large_metrics_refuted :
  ~ (forall rnd iters nv nc k used metrics conx types M varconx,
      keeps double rnd -> formula_ok nv nc k conx types varconx used -> length metrics = nv -> shape nc nv M ->
      Forall (fun z => double (zq z)) metrics -> Forall (Forall (fun z => double (zq z))) M ->
      decisions thr0 (grid1 0 metrics)
        (wrapper_ksat_f rnd iters nv nc (length used) n0 false used (concat varconx) (map (@length nat) varconx)
           (concat conx) (concat types) (grid1 0 metrics) (concat (grid 0 M)) k)
      = decisions thr0 (grid1 0 metrics)
        (wrapper_ksat iters nv nc (length used) n0 false used (concat varconx) (map (@length nat) varconx)
           (concat conx) (concat types) (grid1 0 metrics) (concat (grid 0 M)) k)).
Proof.
  intros H.
  specialize (H ieee 1 4 3 2 [0; 1; 2; 3] (metrics3 (2 ^ 54)) conx3 types3 (messages3 (2 ^ 54)) varconx3
    ieee_keeps formula3_ok eq_refl ltac:(split; repeat constructor)).
  assert (D : forall z, In z [0; 1; 2; 2 ^ 54]%Z -> double (zq z)).
  { intros z [<- | [<- | [<- | [<- | []]]]].
    - exists 0%Z, 0%Z; split; [lia|]; split; [lia|]; apply Qc_is_canon; reflexivity.
    - exists 1%Z, 0%Z; split; [lia|]; split; [lia|]; apply Qc_is_canon; reflexivity.
    - exists 2%Z, 0%Z; split; [lia|]; split; [lia|]; apply Qc_is_canon; reflexivity.
    - exists 1%Z, 54%Z; split; [lia|]; split; [lia|]; apply Qc_is_canon; reflexivity. }
  assert (H1 : Forall (fun z => double (zq z)) (metrics3 (2 ^ 54))).
  { repeat constructor; apply D; cbn; auto. }
  assert (H2 : Forall (Forall (fun z => double (zq z))) (messages3 (2 ^ 54))).
  { repeat constructor; apply D; cbn; auto. }
  specialize (H H1 H2). vm_compute in H. discriminate H.
Qed.

(** the same formula with metrics 1, 5, 2, 5: the messages of three iterations stay within 6 *)
Example C73_example :
  (forall t st, t <= 3 ->
     for_up 0 t (ksat_init 4 3 (grid 0 (messages3 5))) (ksat_step false n0 4 3 2
       {| ks_used := [0; 1; 2; 3]; ks_metrics := grid1 0 (metrics3 5); ks_conx := conx3; ks_type := types3;
          ks_var2clause := grid 0 (messages3 5); ks_varconx := varconx3 |}) = Some st ->
     Forall (Forall (small (pow2 0) 6)) (kst_var st)) /\
  ((2 * 2 * (3 + 1) + 1) * 6 < 2 ^ 53)%Z /\ ((2 * 2 * (3 + 1) + 1) ^ 3 * 5 < 2 ^ 53)%Z /\
  option_map (map view) (call3_f ieee 5 3) = Some [VFin (-2); VFin (-4); VFin (-1); VFin (-6)].
Proof.
  split.
  { intros t st Ht R. do 4 (destruct t as [|t]; [vm_compute in R; injection R as <-; apply mat_dec; vm_compute; reflexivity|]).
    lia. }
  split; [lia|]. split; [lia|]. vm_compute. reflexivity.
Qed.
Print Assumptions C73_ksat.
Print Assumptions C73_ksat_few_iterations.
Print Assumptions C73_large_metrics_refuted.
