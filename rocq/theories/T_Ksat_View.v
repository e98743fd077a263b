(** * Property C80: what a K-SAT output depends on. *)
From Coq Require Import Permutation.
From Verif Require Import Num NumFacts Arr ArrFacts Spec SpecRun SpecForest SpecView MinSum MinSumFacts P_Ksat P_Tsp_Sched P_Tsp_Order.
From Verif Require Import M_Tsp_Run M_Ksat_Py P_Ksat_Py P_Ksat_Gen P_PyRef_Ksat P_Forest P_Forest_Limit P_Ksat_Tree P_Tsp_Assign P_Ksat_Limit P_Ksat_Opt.
From Verif Require Import M_InOut M_Runs P_Runs P_Schedule T_Schedule T_Ksat_Py T_PyRef_Run T_Ksat_Tree T_Ksat_Sym P_Ksat_View.
Local Open Scope nat_scope.

(** A weighted formula in the form the C++ solver takes, with the initial messages of a call of the
    Python class: the costs, at the literals of the formula. *)
Definition input_ok (k : nat) (used : list nat) (varconx : list (list nat)) (V0 : list (list Qc)) (f : weighted) : Prop :=
  formula_ok (length (w_costs f)) (length (w_conx f)) k used (w_conx f) (w_types f) varconx /\
  shape (length (w_conx f)) (length (w_costs f)) V0 /\
  forall c x, In x (nth c (w_conx f) []) -> qat V0 c x = nth x (w_costs f) 0%Qc.
(** The call of the C++ solver on it. *)
Definition solve (iters k : nat) (flag : bool) (alpha : Qc) (used : list nat) (varconx : list (list nat)) (V0 : list (list Qc))
    (f : weighted) : option (list num) :=
  wrapper_ksat iters (length (w_costs f)) (length (w_conx f)) (length used) (Fin alpha) flag used (concat varconx)
    (map (@length nat) varconx) (concat (w_conx f)) (concat (w_types f)) (map Fin (w_costs f)) (concat (inj V0)) k.

Lemma ok_sound k used varconx V0 f : input_ok k used varconx V0 f -> sound (length (w_costs f)) f.
Proof.
  intros (F & _) c. unfold row. destruct (Nat.lt_ge_cases c (length (w_conx f))) as [Hc|G].
  - destruct (ok_row _ _ _ _ _ _ _ _ F Hc) as (L1 & L2 & N & B & _). rewrite Forall_forall in B. split; [exact N|]. split; [exact B|]. lia.
  - destruct F as (_ & (Lt & _) & _). rewrite !nth_overflow by lia. split; [constructor|]. split; [intros u []|reflexivity].
Qed.
Lemma solve_runs iters k flag alpha used varconx V0 f : 2 <= k -> input_ok k used varconx V0 f ->
  exists ext V R D, solve iters k flag alpha used varconx V0 f = Some (map Fin ext) /\ length ext = length (w_costs f) /\
    fsched (seq 0 (length (w_costs f))) (row f) (holds f) (seq 0 (length (w_conx f))) (effective flag alpha) V R D (fun u => nth u (w_costs f) 0%Qc) /\
    (forall c v, In v (row f c) -> V 0 c v = nth v (w_costs f) 0%Qc) /\
    (forall w, w < length (w_costs f) ->
       nth w ext 0%Qc = if iters =? 0 then 0%Qc else qsum (map (fun c => D (iters - 1) c w) (seq 0 (length (w_conx f))))).
Proof.
  intros Hk ((F1 & F2 & F3 & F4 & F5 & F6 & F7) & SV & H0).
  destruct (run_fsched iters (length (w_costs f)) (length (w_conx f)) k used (w_costs f) (w_conx f) (w_types f) V0 varconx
    (seq 0 (length (w_conx f))) flag alpha (fun u => nth u (w_costs f) 0%Qc)) as (ext & V & R & D & E & Le & Sd & E0 & HX); auto.
  exists ext, V, R, D. split; [exact E|]. split; [exact Le|]. split; [exact Sd|]. split; [|exact HX].
  intros c v I. rewrite E0. now apply H0.
Qed.

(** C80, views.  If variable [v] of one formula looks like variable [x] of another one up to
    distance [n], then after [n + 1] iterations, with or without filtering, the solver returns the
    same value for both. *)
Theorem C80_view :
  forall (f g : weighted) (k k' n v x : nat) (flag : bool) (alpha : Qc) (used used' : list nat) (varconx varconx' : list (list nat))
         (V0 V0' : list (list Qc)),
    2 <= k -> 2 <= k' -> input_ok k used varconx V0 f -> input_ok k' used' varconx' V0' g ->
    v < length (w_costs f) -> x < length (w_costs g) -> looks_like f g n v x ->
    exists ext ext',
      solve (n + 1) k flag alpha used varconx V0 f = Some (map Fin ext) /\
      solve (n + 1) k' flag alpha used' varconx' V0' g = Some (map Fin ext') /\
      nth v ext 0%Qc = nth x ext' 0%Qc.
Proof.
  intros f g k k' n v x flag alpha used used' varconx varconx' V0 V0' Hk Hk' F G Hv Hx H.
  destruct (solve_runs (n + 1) k flag alpha used varconx V0 f Hk F) as (ext & V & R & D & E & _ & Sd & E0 & HX).
  destruct (solve_runs (n + 1) k' flag alpha used' varconx' V0' g Hk' G) as (ext' & V' & R' & D' & E' & _ & Sd' & E0' & HX').
  exists ext, ext'. split; [exact E|split; [exact E'|]]. rewrite HX, HX' by auto.
  replace (n + 1 =? 0) with false by (symmetry; apply Nat.eqb_neq; lia). rewrite Nat.add_sub.
  eapply outputs_alike with (f := f) (g := g); eauto using ok_sound.
Qed.

(** C80, locality.  If two formulas have the same clauses (as lists of literals) within distance
    [iters] of variable [v] and the same costs there, the solver returns the same value for [v]
    after [iters] iterations: clauses and costs further away have had no influence. *)
Theorem C80_local :
  forall (f g : weighted) (k k' iters v : nat) (flag : bool) (alpha : Qc) (used used' : list nat) (varconx varconx' : list (list nat))
         (V0 V0' : list (list Qc)),
    2 <= k -> 2 <= k' -> input_ok k used varconx V0 f -> input_ok k' used' varconx' V0' g ->
    v < length (w_costs f) -> v < length (w_costs g) ->
    (forall j c, j <= iters -> within_clause f v j c \/ within_clause g v j c ->
       nth c (w_conx g) [] = nth c (w_conx f) [] /\ nth c (w_types g) [] = nth c (w_types f) [] /\
       forall w, In w (nth c (w_conx f) []) -> nth w (w_costs g) 0%Qc = nth w (w_costs f) 0%Qc) ->
    exists ext ext',
      solve iters k flag alpha used varconx V0 f = Some (map Fin ext) /\
      solve iters k' flag alpha used' varconx' V0' g = Some (map Fin ext') /\
      nth v ext 0%Qc = nth v ext' 0%Qc.
Proof.
  intros f g k k' iters v flag alpha used used' varconx varconx' V0 V0' Hk Hk' F G Hv Hx A.
  destruct (Nat.eq_dec iters 0) as [->|Hn].
  - destruct (solve_runs 0 k flag alpha used varconx V0 f Hk F) as (ext & V & R & D & E & _ & _ & _ & HX).
    destruct (solve_runs 0 k' flag alpha used' varconx' V0' g Hk' G) as (ext' & V' & R' & D' & E' & _ & _ & _ & HX').
    exists ext, ext'. split; [exact E|split; [exact E'|]]. rewrite HX, HX' by auto. reflexivity.
  - replace iters with (iters - 1 + 1) by lia. apply C80_view; auto. apply local_looks; [exact A|lia].
Qed.

(** C80, coverings.  If one formula covers another one, the solver cannot tell them apart: after
    every number of iterations it returns for a variable of the cover what it returns for the
    variable below it. *)
Theorem C80_cover :
  forall (f g : weighted) (fv fc : nat -> nat) (k k' iters x : nat) (flag : bool) (alpha : Qc) (used used' : list nat)
         (varconx varconx' : list (list nat)) (V0 V0' : list (list Qc)),
    2 <= k -> 2 <= k' -> input_ok k used varconx V0 f -> input_ok k' used' varconx' V0' g ->
    covering f g fv fc -> x < length (w_costs g) -> fv x < length (w_costs f) ->
    exists ext ext',
      solve iters k flag alpha used varconx V0 f = Some (map Fin ext) /\
      solve iters k' flag alpha used' varconx' V0' g = Some (map Fin ext') /\
      nth x ext' 0%Qc = nth (fv x) ext 0%Qc.
Proof.
  intros f g fv fc k k' iters x flag alpha used used' varconx varconx' V0 V0' Hk Hk' F G C Hx Hv.
  destruct (Nat.eq_dec iters 0) as [->|Hn].
  - destruct (solve_runs 0 k flag alpha used varconx V0 f Hk F) as (ext & V & R & D & E & _ & _ & _ & HX).
    destruct (solve_runs 0 k' flag alpha used' varconx' V0' g Hk' G) as (ext' & V' & R' & D' & E' & _ & _ & _ & HX').
    exists ext, ext'. split; [exact E|split; [exact E'|]]. rewrite HX, HX' by auto. reflexivity.
  - destruct (C80_view f g k k' (iters - 1) (fv x) x flag alpha used used' varconx varconx' V0 V0') as (ext & ext' & E & E' & H); auto.
    + eapply cover_looks; eauto using ok_sound.
    + replace (iters - 1 + 1) with iters in * by lia. exists ext, ext'. auto.
Qed.

(** C80, trees.  Let the formula of [g] have no cycles and end within distance [n] of its variable
    [x], and let variable [v] of [f] look like [x] up to distance [n].  Then without filtering the
    value returned for [v] after [n + 1] iterations is the min-sum message of the formula of [g]:
    its cheapest satisfying assignment with [x] set to 1 minus the cheapest with [x] set to 0.
    ([f] can have cycles: [g] is then a tree that unrolls them.) *)
Theorem C80_tree :
  forall (f g : weighted) (k k' n v x : nat) (alpha : Qc) (used used' : list nat) (varconx varconx' : list (list nat))
         (V0 V0' : list (list Qc)),
    2 <= k -> 2 <= k' -> input_ok k used varconx V0 f -> input_ok k' used' varconx' V0' g ->
    v < length (w_costs f) -> x < length (w_costs g) -> looks_like f g n v x ->
    tree_like (w_conx g) -> ends_within g n x ->
    exists ext,
      solve (n + 1) k false alpha used varconx V0 f = Some (map Fin ext) /\
      minsum_message (satisfies (w_conx g) (w_types g)) (w_costs g) x (Fin (nth v ext 0%Qc)).
Proof.
  intros f g k k' n v x alpha used used' varconx varconx' V0 V0' Hk Hk' F G Hv Hx H T B.
  destruct (C80_view f g k k' n v x false alpha used used' varconx varconx' V0 V0') as (ext & ext' & E & E' & Eq); auto.
  exists ext. split; [exact E|]. rewrite Eq.
  set (N := n + 1 + length (w_conx g)).
  destruct (solve_runs (n + 1) k' false alpha used' varconx' V0' g Hk' G) as (e1 & V & R & D & E1 & _ & Sd & I1 & H1).
  destruct (solve_runs N k' false alpha used' varconx' V0' g Hk' G) as (e2 & V2 & R2 & D2 & E2 & _ & Sd2 & I2 & H2).
  assert (X1 : nth x ext' 0%Qc = nth x e1 0%Qc).
  { rewrite E1 in E'. injection E' as E'. f_equal. clear -E'. revert e1 E'. induction ext' as [|q l IH]; intros [|q' l'] H; try discriminate; [reflexivity|].
    cbn in H. injection H as -> H. f_equal. apply IH, H. }
  assert (X2 : nth x e1 0%Qc = nth x e2 0%Qc).
  { rewrite H1, H2 by auto. replace (n + 1 =? 0) with false by (symmetry; apply Nat.eqb_neq; lia).
    replace (N =? 0) with false by (symmetry; apply Nat.eqb_neq; unfold N; lia). rewrite Nat.add_sub.
    rewrite <- (ends_output _ g V R D Sd I1 n x (N - 1) B) by (unfold N; lia). f_equal. apply map_ext_in. intros c Hc.
    eapply (fsched_unique (seq 0 (length (w_costs g))) (row g) (holds g)) with (1 := Sd) (2 := Sd2); auto.
    intros c' u _ I. rewrite I1, I2 by auto. reflexivity. }
  rewrite X1, X2. destruct G as ((F1 & F2 & F3 & F4 & F5 & F6 & F7) & SV & H0).
  destruct (C58_tree_exact N (length (w_costs g)) (length (w_conx g)) k' used' (w_costs g) (w_conx g) (w_types g) V0' varconx' alpha)
    as (e3 & E3 & _ & M); auto; [left; unfold N; lia|].
  unfold solve in E2. rewrite E3 in E2. injection E2 as E2.
  assert (X3 : e3 = e2). { clear -E2. revert e2 E2. induction e3 as [|q l IH]; intros [|q' l'] H; try discriminate; [reflexivity|].
    cbn in H. injection H as -> H. f_equal. apply IH, H. }
  rewrite <- X3. now apply M.
Qed.

(** ** Examples *)

(** three clauses in a circle: 0 or 1, 1 implies 2, 0 implies 2 ... *)
Definition circle : weighted :=
  {| w_conx := [[0; 1]; [1; 2]; [2; 0]]; w_types := [[1; 1]; [-1; 1]; [1; -1]]%Z; w_costs := map zq [4; 1; -2]%Z |}.
Definition circle_vconx := [[0; 2]; [0; 1]; [1; 2]].
Definition circle_V0 := map (map zq) [[4; 1; 7]; [9; 1; -2]; [4; 8; -2]]%Z.
(** ... the same walked around twice ... *)
Definition double : weighted :=
  {| w_conx := [[0; 1]; [1; 2]; [3; 2]; [3; 4]; [4; 5]; [5; 0]];
     w_types := [[1; 1]; [-1; 1]; [-1; 1]; [1; 1]; [-1; 1]; [1; -1]]%Z; w_costs := map zq [4; 1; -2; 4; 1; -2]%Z |}.
Definition double_vconx := [[5; 0]; [0; 1]; [1; 2]; [2; 3]; [3; 4]; [4; 5]].
Definition double_V0 := repeat (map zq [4; 1; -2; 4; 1; -2]%Z) 6.
(** ... and unrolled from variable 0 *)
Definition unrolled : weighted :=
  {| w_conx := [[0; 1]; [2; 0]; [1; 3]; [4; 2]]; w_types := [[1; 1]; [1; -1]; [-1; 1]; [-1; 1]]%Z; w_costs := map zq [4; 1; -2; -2; 1]%Z |}.
Definition unrolled_vconx := [[0; 1]; [0; 2]; [1; 3]; [2]; [3]].
Definition unrolled_V0 := repeat (map zq [4; 1; -2; -2; 1]%Z) 4.

Ltac nats c := do 8 (try (destruct c as [|c])).
Ltac in_list I := repeat (destruct I as [<-|I]); try destruct I.
Ltac input :=
  split; [split; [split; [reflexivity|repeat constructor]|]; split; [split; [reflexivity|repeat constructor]|];
  split; [intros c cx tys H1 H2; nats c; cbn in H1, H2; try (destruct c; discriminate); try discriminate;
      injection H1 as <-; injection H2 as <-; unfold clause_wf, pm1;
      repeat split; auto; repeat constructor; auto; cbn; intuition discriminate|];
  split; [reflexivity|]; split; [repeat constructor|]; split;
  [intros x l Hx; split;
    [nats x; cbn in Hx; try (destruct x; discriminate Hx); try discriminate; injection Hx as <-;
       repeat constructor; cbn; intuition discriminate
    |intros c; nats x; cbn in Hx; try (destruct x; discriminate Hx); try discriminate; injection Hx as <-;
       nats c; try (destruct c); cbn; lia]
  |intros j Hj N; nats j; try (exfalso; apply N; cbn; tauto); cbn in Hj; lia]
  |split; [split; [reflexivity|repeat constructor]|
   intros c x I; nats c; try (destruct c); cbn in I; in_list I; reflexivity]].

Lemma circle_ok : input_ok 2 [0; 1; 2] circle_vconx circle_V0 circle.
Proof. input. Qed.
Lemma double_ok : input_ok 2 [5; 4; 3; 2; 1; 0] double_vconx double_V0 double.
Proof. input. Qed.
Lemma unrolled_ok : input_ok 2 [0; 1; 2; 3; 4] unrolled_vconx unrolled_V0 unrolled.
Proof. input. Qed.
Ltac lits H := let j := fresh "j" in let J1 := fresh in let J2 := fresh in
  destruct H as (j & J1 & J2); nats j; try (destruct j); cbn in J1, J2; try discriminate.
Lemma double_covers : covering circle double (fun x => x mod 3) (fun c => c mod 3).
Proof.
  split; [|split].
  - intros d x t H. nats d; try (destruct d); lits H;
      injection H0 as <-; injection H1 as <-; (split; [|reflexivity]); (exists 0; split; reflexivity) || (exists 1; split; reflexivity).
  - intros d Hd. cbn in Hd. nats d; try lia; cbn; try reflexivity; apply perm_swap.
  - intros x Hx. cbn in Hx. nats x; try lia; cbn; try reflexivity; apply perm_swap.
Qed.
Lemma same_by f g c v d x i j :
  NoDup (nth c (w_conx f) []) -> NoDup (nth d (w_conx g) []) ->
  nth_error (nth c (w_conx f) []) i = Some v -> nth_error (nth d (w_conx g) []) j = Some x ->
  nth_error (nth c (w_types f) []) i = nth_error (nth d (w_types g) []) j -> same_type f g c v d x.
Proof.
  intros N N' I J E t. split; intros (l & L1 & L2).
  - exists j. split; [exact J|]. rewrite <- E. replace i with l; [exact L2|].
    eapply (proj1 (NoDup_nth_error _)); [exact N|apply nth_error_Some; congruence|congruence].
  - exists i. split; [exact I|]. rewrite E. replace j with l; [exact L2|].
    eapply (proj1 (NoDup_nth_error _)); [exact N'|apply nth_error_Some; congruence|congruence].
Qed.
Ltac nodup := cbn; repeat constructor; cbn; intuition discriminate.
Ltac by_pos := first
  [apply same_by with (i := 0) (j := 0); [nodup|nodup|reflexivity|reflexivity|reflexivity]
  |apply same_by with (i := 1) (j := 1); [nodup|nodup|reflexivity|reflexivity|reflexivity]
  |apply same_by with (i := 0) (j := 1); [nodup|nodup|reflexivity|reflexivity|reflexivity]
  |apply same_by with (i := 1) (j := 0); [nodup|nodup|reflexivity|reflexivity|reflexivity]].

Ltac pairing l := exists l; split; [reflexivity|split; [reflexivity|]]; repeat (apply Forall_cons; cbn [fst snd]); try apply Forall_nil.
Lemma unrolled_looks : looks_like circle unrolled 1 0 0.
Proof.
  pairing [(0, 0); (2, 1)].
  - split; [by_pos|]. pairing [(1, 1)]. split; [by_pos|]. split; [reflexivity|].
    pairing [(1, 2)]. split; [by_pos|]. pairing [(2, 3)]. split; [by_pos|]. split; [reflexivity|exact I].
  - split; [by_pos|]. pairing [(2, 2)]. split; [by_pos|]. split; [reflexivity|].
    pairing [(1, 3)]. split; [by_pos|]. pairing [(1, 4)]. split; [by_pos|]. split; [reflexivity|exact I].
Qed.
Lemma unrolled_tree : tree_like (w_conx unrolled).
Proof.
  exists [3; 2; 1; 0]. split; [apply NoDup_Permutation; [nodup|nodup|cbn; intuition]|].
  apply forest_cons with (v := 2); [cbn; auto|leafc|]. apply forest_cons with (v := 1); [cbn; auto|leafc|].
  apply forest_cons with (v := 0); [cbn; auto|leafc|]. apply forest_cons with (v := 1); [cbn; auto|leafc|constructor].
Qed.
Lemma unrolled_ends : ends_within unrolled 1 0.
Proof.
  intros c w Hc Hw. cbn in Hc. in_list Hc; cbn in Hw; in_list Hw; intros c' w' Hc' Hw'; cbn in Hc'; in_list Hc'; cbn in Hw'; in_list Hw'; reflexivity.
Qed.

(** The formula with a circle, its double cover and its unrolling from variable 0. *)
Example C80_example :
  covering circle double (fun x => x mod 3) (fun c => c mod 3) /\ looks_like circle unrolled 1 0 0 /\
  tree_like (w_conx unrolled) /\ ends_within unrolled 1 0 /\ ~ tree_like (w_conx circle) /\
  (* the cover repeats the values *)
  map (fun iters => option_map (map view) (solve iters 2 true (Q2Qc (1 # 2)) [0; 1; 2] circle_vconx circle_V0 circle)) [2; 3]
    = [Some [VFin (-3 # 4); VFin (-3); VFin (-1 # 2)]; Some [VFin (-7 # 8); VFin (-7 # 2); VFin (-5 # 4)]] /\
  map (fun iters => option_map (map view) (solve iters 2 true (Q2Qc (1 # 2)) [5; 4; 3; 2; 1; 0] double_vconx double_V0 double)) [2; 3]
    = [Some [VFin (-3 # 4); VFin (-3); VFin (-1 # 2); VFin (-3 # 4); VFin (-3); VFin (-1 # 2)];
       Some [VFin (-7 # 8); VFin (-7 # 2); VFin (-5 # 4); VFin (-7 # 8); VFin (-7 # 2); VFin (-5 # 4)]] /\
  (* two iterations give variable 0 the value -1 of the tree (and other variables other values) *)
  map (fun iters => option_map (map view) (solve iters 2 false 0 [0; 1; 2] circle_vconx circle_V0 circle)) [1; 2]
    = [Some [VFin (-1); VFin (-4); VFin 0]; Some [VFin (-1); VFin (-4); VFin (-3)]] /\
  map (fun iters => option_map (map view) (solve iters 2 false 0 [0; 1; 2; 3; 4] unrolled_vconx unrolled_V0 unrolled)) [1; 2]
    = [Some [VFin (-1); VFin (-4); VFin 0; VFin 0; VFin 0]; Some [VFin (-1); VFin (-4); VFin 0; VFin (-3); VFin 0]].
Proof.
  split; [apply double_covers|]. split; [apply unrolled_looks|]. split; [apply unrolled_tree|]. split; [apply unrolled_ends|].
  split.
  { intros (order & P & F).
    assert (Ms : forall c, In c order <-> c < 3).
    { intros c. split; intros H; [apply (Permutation_in _ P), in_seq in H; cbn in H; lia|].
      apply (Permutation_in _ (Permutation_sym P)), in_seq. cbn. lia. }
    destruct F as [|i v idx I N F]; [apply (Ms 0); lia|].
    assert (O : forall c, c < 3 -> c <> i -> In c idx) by (intros c Hc Ne; apply Ms in Hc as [E|Hc]; [congruence|exact Hc]).
    assert (Hi : i < 3) by (apply Ms; now left).
    nats i; try lia; cbn in I; in_list I.
    - apply (N 1 1); cbn; auto; apply O; lia.
    - apply (N 0 2); cbn; auto; apply O; lia.
    - apply (N 2 2); cbn; auto; apply O; lia.
    - apply (N 1 0); cbn; auto; apply O; lia.
    - apply (N 0 0); cbn; auto; apply O; lia.
    - apply (N 2 1); cbn; auto; apply O; lia. }
  vm_compute. repeat split.
Qed.

(** implications 0 -> 1 -> 2 -> 3 -> 4; the second formula reverses the last one and changes the
    cost of variable 4 *)
Definition long : weighted :=
  {| w_conx := [[1; 0]; [2; 1]; [3; 2]; [4; 3]]; w_types := repeat [1; -1]%Z 4; w_costs := map zq [-3; 1; 1; 1; 1]%Z |}.
Definition longer : weighted :=
  {| w_conx := [[1; 0]; [2; 1]; [3; 2]; [4; 3]]; w_types := repeat [1; -1]%Z 3 ++ [[-1; 1]]%Z; w_costs := map zq [-3; 1; 1; 1; -7]%Z |}.
Definition long_vconx := [[0]; [0; 1]; [1; 2]; [2; 3]; [3]].
Definition long_V0 := repeat (map zq [-3; 1; 1; 1; 1]%Z) 4.
Definition longer_V0 := repeat (map zq [-3; 1; 1; 1; -7]%Z) 4.
Lemma long_ok : input_ok 2 [0; 1; 2; 3; 4] long_vconx long_V0 long.
Proof. input. Qed.
Lemma longer_ok : input_ok 2 [0; 1; 2; 3; 4] long_vconx longer_V0 longer.
Proof. input. Qed.
Lemma long_distance f : w_conx f = w_conx long -> forall j c, within_clause f 0 j c -> c < j.
Proof.
  intros E j c H.
  assert (K : forall c w, In w (nth c (w_conx f) []) -> c = w \/ c + 1 = w).
  { rewrite E. intros d w I. nats d; try (destruct d); cbn in I; in_list I; lia. }
  induction H as [c I|j c w c' H IH I I']; [apply K in I; lia|]. apply K in I, I'. lia.
Qed.

Example C80_local_example :
  (forall j c, j <= 3 -> within_clause long 0 j c \/ within_clause longer 0 j c ->
     nth c (w_conx longer) [] = nth c (w_conx long) [] /\ nth c (w_types longer) [] = nth c (w_types long) [] /\
     forall w, In w (nth c (w_conx long) []) -> nth w (w_costs longer) 0%Qc = nth w (w_costs long) 0%Qc) /\
  map (fun iters => option_map (fun l => view (nth 0 l n0)) (solve iters 2 false 0 [0; 1; 2; 3; 4] long_vconx long_V0 long)) [2; 3; 4]
    = [Some (VFin 2); Some (VFin 3); Some (VFin 4)] /\
  map (fun iters => option_map (fun l => view (nth 0 l n0)) (solve iters 2 false 0 [0; 1; 2; 3; 4] long_vconx longer_V0 longer)) [2; 3; 4]
    = [Some (VFin 2); Some (VFin 3); Some (VFin 2)].
Proof.
  split.
  - intros j c Hj H. assert (Hc : c < 3) by (destruct H as [H|H]; apply long_distance in H; auto; lia).
    destruct c as [|[|[|c]]]; try lia; (split; [reflexivity|]); (split; [reflexivity|]); intros w I; cbn in I; in_list I; reflexivity.
  - vm_compute. repeat split.
Qed.

Print Assumptions C80_view.
Print Assumptions C80_local.
Print Assumptions C80_cover.
Print Assumptions C80_tree.
