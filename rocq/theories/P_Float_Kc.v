(** * KC-MWM runs that need no rounding. *)
From Verif Require Import Num NumFacts Arr ArrFacts M_Equality M_Filter M_Kc_Trellis M_Knapsack M_InOut M_Runs
  M_Float P_Float P_Float_Tsp P_Float_Ksat.
Local Open Scope nat_scope.

(** tables whose column [j] has its own property *)
Definition cols_ok {A} (P : nat -> A -> Prop) (m : list (list A)) : Prop :=
  Forall (fun r => forall j x, nth_error r j = Some x -> P j x) m.
Lemma cols_get2 {A} (P : nat -> A -> Prop) m i j : cols_ok P m -> same (P j) (get2 m i j) (get2 m i j).
Proof.
  intros H. split; [reflexivity|]. intros x. unfold get2, get.
  destruct (nth_error m i) as [r|] eqn:E; [|discriminate]. cbn [bind]. intros Ex.
  exact (proj1 (Forall_forall _ _) H r (nth_error_In _ _ E) j x Ex).
Qed.
Lemma cols_set {A} (P : nat -> A -> Prop) m i r : cols_ok P m ->
  (forall j x, nth_error r j = Some x -> P j x) -> same (cols_ok P) (set m i r) (set m i r).
Proof. intros H Hr. apply same_set; auto. Qed.
Lemma cols_set2 {A} (P : nat -> A -> Prop) m i j v w : v = w -> cols_ok P m -> P j w ->
  same (cols_ok P) (set2 m i j v) (set2 m i j w).
Proof.
  intros -> H Hv. unfold set2. apply same_bind with (P := fun r => forall j x, nth_error r j = Some x -> P j x);
    [apply same_get; exact H|]. intros r Hr. unfold set at 1. unfold set at 2.
  destruct (j <? length r); [|apply same_none]. cbn [bind]. apply cols_set; [exact H|].
  intros k x E. apply nth_upd in E. destruct E as [[<- ->]|[_ E]]; [exact Hv | exact (Hr k x E)].
Qed.
(** loops that count down *)
Lemma same_down_count {S} (I : nat -> S -> Prop) n (f g : S -> nat -> option S) s : I 0 s ->
  (forall k i s, i < n -> k < n -> I k s -> same (I (k + 1)) (f s i) (g s i)) ->
  same (I n) (for_down 0 n s f) (for_down 0 n s g).
Proof.
  intros Hs H. unfold for_down. rewrite Nat.sub_0_r.
  pose proof (same_foldM I f g (rev (seq 0 n)) 0 s Hs) as K. rewrite rev_length, seq_length in K. cbn [plus] in K.
  apply K. intros i a t E Ht. apply H; [| |exact Ht].
  - apply nth_error_In, in_rev, in_seq in E. lia.
  - assert (i < length (rev (seq 0 n))) by (apply nth_error_Some; congruence).
    rewrite rev_length, seq_length in H0. exact H0.
Qed.

Section Kc.
Variables (u : Qc) (N : Z) (rnd : Qc -> num).
Hypothesis Hrnd : exact_upto u N rnd.
Notation on := (on u).
Notation add_exact := (add_exact u N rnd Hrnd).
Notation sub_exact := (sub_exact u N rnd Hrnd).
Ltac skip := apply same_bind with (P := fun _ => True); [apply same_any|].
Ltac keep := apply same_ret; [reflexivity | assumption].

(** ** Two-state trellis *)
Definition col (c : nat) (S : Z) (j : nat) : num -> Prop := on (if j =? c then 0 else S).
Lemma zeros2 c S n : (0 <= S)%Z -> cols_ok (col c S) (repeat [n0; n0] n).
Proof.
  intros H. apply Forall_repeat. intros j x E. assert (x = n0) by (apply nth_error_In in E; destruct E as [<-|[<-|[]]]; reflexivity).
  subst x. unfold col. destruct (j =? c); apply on_0; lia.
Qed.
Lemma ic_forward_same S n sf sx tbl : (0 <= S)%Z ->
  (forall s x, on 0 x -> same (on S) (sf s x) (sx s x)) -> cols_ok (col 0 S) tbl ->
  same (cols_ok (col 0 S)) (ic_forward n sf tbl) (ic_forward n sx tbl).
Proof.
  intros HS Hs Ht. unfold ic_forward. apply same_bind with (P := cols_ok (col 0 S)).
  { apply cols_set; [exact Ht|]. intros [|[|j]] x E; cbn in E.
    - injection E as <-. apply on_0. cbn. lia.
    - injection E as <-. exact I.
    - destruct j; discriminate E. }
  clear tbl Ht. intros tbl Ht. apply same_for; [exact Ht|]. clear tbl Ht. intros s tbl _ Ht.
  apply same_bind with (P := col 0 S 0); [apply cols_get2; exact Ht|]. intros a0 H0.
  apply same_bind with (P := cols_ok (col 0 S)); [apply cols_set2; auto|]. clear tbl Ht. intros tbl Ht.
  apply same_bind with (P := col 0 S 1); [apply cols_get2; exact Ht|]. intros a1 H1.
  apply same_bind with (P := col 0 S 0); [apply cols_get2; exact Ht|]. intros a0' H0'.
  apply same_bind with (P := on S); [apply Hs; exact H0'|]. intros x Hx.
  apply cols_set2; auto. apply on_min; assumption.
Qed.
Lemma ic_backward_same S n sf sx tbl : (0 <= S)%Z ->
  (forall s x, on 0 x -> same (on S) (sf s x) (sx s x)) -> cols_ok (col 1 S) tbl ->
  same (cols_ok (col 1 S)) (ic_backward n sf tbl) (ic_backward n sx tbl).
Proof.
  intros HS Hs Ht. unfold ic_backward. apply same_bind with (P := cols_ok (col 1 S)).
  { apply cols_set; [exact Ht|]. intros [|[|j]] x E; cbn in E.
    - injection E as <-. apply on_0. cbn. lia.
    - injection E as <-. apply on_0. cbn. lia.
    - destruct j; discriminate E. }
  clear tbl Ht. intros tbl Ht. apply same_down; [exact Ht|]. clear tbl Ht. intros s tbl _ Ht.
  apply same_bind with (P := col 1 S 0); [apply cols_get2; exact Ht|]. intros b0 H0.
  apply same_bind with (P := col 1 S 1); [apply cols_get2; exact Ht|]. intros b1 H1.
  apply same_bind with (P := on S); [apply Hs; exact H1|]. intros x Hx.
  apply same_bind with (P := cols_ok (col 1 S)); [apply cols_set2; auto; apply on_min; assumption|].
  clear tbl Ht. intros tbl Ht.
  apply same_bind with (P := col 1 S 1); [apply cols_get2; exact Ht|]. intros b1' H1'.
  apply cols_set2; auto.
Qed.

Definition trellis_ok {X} (S : Z) (R : X -> Prop) (st : list (list num) * list (list num) * X) : Prop :=
  cols_ok (col 0 S) (fst (fst st)) /\ cols_ok (col 1 S) (snd (fst st)) /\ R (snd st).
Lemma project_same A T msgs out : (0 <= A)%Z -> (A <= N)%Z -> mat (on A) msgs -> mat (on A) out ->
  same (mat (on A)) (project_update_f rnd T msgs out) (project_update T msgs out).
Proof.
  intros HA L Hm Ho. unfold project_update_f, project_update.
  apply same_bind with (P := trellis_ok A (mat (on A))).
  - apply same_for; [split; [|split]; [apply zeros2; exact HA | apply zeros2; exact HA | exact Ho]|].
    intros p [[fwd bwd] o] _ (F & B & O). cbn [fst snd] in *. unfold project_one_f, project_one.
    assert (Hs : forall s x, on 0 x -> same (on A) (m <- get2 msgs p s ;; Some (fadd rnd x m))
                                                (m <- get2 msgs p s ;; Some (nadd x m))).
    { intros s x Hx. apply same_bind with (P := on A); [apply same_get2; exact Hm|]. intros m Hmm.
      destruct (add_exact 0 A x m Hx Hmm) as [E1 F1]; [lia|]. apply same_ret; [exact E1|].
      eapply on_mono; [|exact F1]. lia. }
    apply same_bind with (P := cols_ok (col 0 A)); [apply ic_forward_same; auto|]. clear fwd F. intros fwd F.
    apply same_bind with (P := cols_ok (col 1 A)); [apply ic_backward_same; auto|]. clear bwd B. intros bwd B.
    apply same_bind with (P := mat (on A)).
    + apply same_for; [exact O|]. clear o O. intros t o _ O.
      apply same_bind with (P := col 0 A 1); [apply cols_get2; exact F|]. intros a Ha.
      apply same_bind with (P := col 1 A 0); [apply cols_get2; exact B|]. intros b Hb.
      apply same_set2; auto. apply on_opp, on_min; [apply on_min; assumption | apply on_0; lia].
    + intros o' O'. apply same_ret; [reflexivity|]. split; [exact F|split; [exact B | exact O']].
  - intros [[a b] o] (_ & _ & O). apply same_ret; auto.
Qed.
Lemma oric_same A B C P T eq2oric team2oric o2e e2p reward :
  (0 <= A)%Z -> (0 <= B)%Z -> (0 <= C)%Z -> (2 * A + B + C <= N)%Z ->
  mat (on B) eq2oric -> Forall (on A) team2oric -> mat (on C) reward ->
  mat (on (2 * A + B)) o2e -> mat (on (2 * A + B + C)) e2p ->
  same (fun r => mat (on (2 * A + B)) (fst r) /\ mat (on (2 * A + B + C)) (snd r))
    (oric_to_project_update_f rnd P T eq2oric team2oric o2e e2p reward)
    (oric_to_project_update P T eq2oric team2oric o2e e2p reward).
Proof.
  intros HA HB HC L Hq Ht Hr Ho He. unfold oric_to_project_update_f, oric_to_project_update.
  set (ok := fun st : list (list num) * list (list num) * list (list num) * list (list num) =>
    cols_ok (col 0 (B + A)) (fst (fst (fst st))) /\ cols_ok (col 1 (B + A)) (snd (fst (fst st)))
    /\ mat (on (2 * A + B)) (snd (fst st)) /\ mat (on (2 * A + B + C)) (snd st)).
  apply same_bind with (P := ok).
  - apply same_for; [split; [|split; [|split]]; [apply zeros2; lia | apply zeros2; lia | exact Ho | exact He]|].
    intros t [[[fwd bwd] o] p2] _ (F & G & O & E). cbn [fst snd] in *. unfold oric_one_f, oric_one.
    assert (Hs : forall s x, on 0 x ->
      same (on (B + A)) (e <- get2 eq2oric s t ;; m <- get team2oric t ;; Some (fadd rnd (fadd rnd x e) m))
                        (e <- get2 eq2oric s t ;; m <- get team2oric t ;; Some (nadd (nadd x e) m))).
    { intros s x Hx. apply same_bind with (P := on B); [apply same_get2; exact Hq|]. intros e Hee.
      apply same_bind with (P := on A); [apply same_get; exact Ht|]. intros m Hmm.
      destruct (add_exact 0 B x e Hx Hee) as [E1 F1]; [lia|].
      destruct (add_exact _ A _ m F1 Hmm) as [E2 F2]; [lia|]. apply same_ret; [rewrite E1, E2; reflexivity|].
      eapply on_mono; [|exact F2]. lia. }
    apply same_bind with (P := cols_ok (col 0 (B + A))); [apply ic_forward_same; auto; lia|]. clear fwd F. intros fwd F.
    apply same_bind with (P := cols_ok (col 1 (B + A))); [apply ic_backward_same; auto; lia|]. clear bwd G. intros bwd G.
    apply same_bind with (P := fun r => mat (on (2 * A + B)) (fst r) /\ mat (on (2 * A + B + C)) (snd r)).
    + apply same_for; [split; assumption|]. clear o p2 O E. intros p [o p2] _ [O E]. cbn [fst snd] in *.
      apply same_bind with (P := col 0 (B + A) 1); [apply cols_get2; exact F|]. intros a Ha.
      apply same_bind with (P := col 1 (B + A) 0); [apply cols_get2; exact G|]. intros b Hb.
      apply same_bind with (P := on A); [apply same_get; exact Ht|]. intros m Hmm.
      assert (Hmin : on (B + A) (nmin (nmin a b) n0))
        by (apply on_min; [apply on_min; assumption | apply on_0; lia]).
      destruct (sub_exact _ _ m _ Hmm Hmin) as [E1 F1]; [lia|]. rewrite E1.
      apply same_bind with (P := mat (on (2 * A + B))).
      { apply same_set2; auto. eapply on_mono; [|exact F1]. lia. }
      clear o O. intros o O.
      apply same_bind with (P := on (2 * A + B)); [apply same_get2; exact O|]. intros v Hv.
      apply same_bind with (P := on C); [apply same_get2; exact Hr|]. intros r Hrr.
      destruct (add_exact _ _ v r Hv Hrr) as [E2 F2]; [lia|]. rewrite E2.
      apply same_bind with (P := mat (on (2 * A + B + C))); [apply same_set2; auto|].
      intros p3 E3. apply same_ret; [reflexivity | split; assumption].
    + intros [o' p'] [O' E']. apply same_ret; [reflexivity|]. split; [exact F|]. split; [exact G|]. split; assumption.
  - intros [[[a b] o] p] (_ & _ & O & E). apply same_ret; [reflexivity | split; assumption].
Qed.

(** ** Knapsack trellis *)
Lemma min_element_on B l r : Forall (on B) l -> min_element l = Some r -> on B r.
Proof.
  destruct l as [|a l]; [discriminate|]. intros H [= <-]. inversion H as [|? ? Ha Hl]; subst.
  clear H. revert a Ha. induction Hl as [|b l Hb Hl IH]; intros a Ha; [exact Ha|]. cbn [fold_left]. apply IH.
  apply on_min; assumption.
Qed.
Lemma fwd_stage_same S B cap t w m init tbl : (0 <= S)%Z -> (0 <= B)%Z -> (S + B <= N)%Z ->
  on B m -> Forall (on S) init -> mat (on S) tbl ->
  same (mat (on (S + B))) (fwd_stage_f rnd cap t w m init tbl) (fwd_stage cap t w m init tbl).
Proof.
  intros HS HB L Hm Hi Ht. unfold fwd_stage_f, fwd_stage.
  apply same_for; [eapply mat_mono; [|exact Ht]; lia|]. clear tbl Ht. intros a tbl _ Ht.
  assert (Hx : forall i, same (on S) (get init i) (get init i)) by (intros i; apply same_get; exact Hi).
  destruct ((w <=? a) && negb ((t =? 0) && negb (a =? w))).
  - apply same_bind with (P := on S); [apply Hx|]. intros x X. apply same_bind with (P := on S); [apply Hx|]. intros y Y.
    destruct (add_exact S B y m Y Hm L) as [E F]. rewrite E. apply same_set2; auto.
    apply on_min; [eapply on_mono; [|exact X]; lia | exact F].
  - apply same_bind with (P := on S); [apply Hx|]. intros x X. apply same_set2; auto. eapply on_mono; [|exact X]; lia.
Qed.
Lemma bwd_stage_same S B cap t w m init tbl : (0 <= S)%Z -> (0 <= B)%Z -> (S + B <= N)%Z ->
  on B m -> Forall (on S) init -> mat (on S) tbl ->
  same (mat (on (S + B))) (bwd_stage_f rnd cap t w m init tbl) (bwd_stage cap t w m init tbl).
Proof.
  intros HS HB L Hm Hi Ht. unfold bwd_stage_f, bwd_stage.
  apply same_for; [eapply mat_mono; [|exact Ht]; lia|]. clear tbl Ht. intros a tbl _ Ht.
  assert (Hx : forall i, same (on S) (get init i) (get init i)) by (intros i; apply same_get; exact Hi).
  destruct (((0 <? t) && (a + w <=? cap)) || ((a =? 0) && (t =? 0))).
  - apply same_bind with (P := on S); [apply Hx|]. intros x X. apply same_bind with (P := on S); [apply Hx|]. intros y Y.
    destruct (add_exact S B y m Y Hm L) as [E F]. rewrite E. apply same_set2; auto.
    apply on_min; [eapply on_mono; [|exact X]; lia | exact F].
  - apply same_bind with (P := on S); [apply Hx|]. intros x X. apply same_set2; auto. eapply on_mono; [|exact X]; lia.
Qed.
Lemma same_let {A} (x : option A) (P : A -> Prop) : (forall a, x = Some a -> P a) -> same P x x.
Proof. intros H. split; auto. Qed.
(** filling rows of the table with [init] *)
Lemma fill_up S lo hi init (d : nat) tbl : Forall (on S) init -> mat (on S) tbl ->
  same (mat (on S)) (for_up lo hi tbl (fun tbl j => set tbl (j + d) init))
                    (for_up lo hi tbl (fun tbl j => set tbl (j + d) init)).
Proof. intros Hi Ht. apply same_for; [exact Ht|]. intros j t _ H. apply same_set; auto. Qed.
Lemma fill_down S lo hi init tbl : Forall (on S) init -> mat (on S) tbl ->
  same (mat (on S)) (for_down lo hi tbl (fun tbl j => set tbl j init))
                    (for_down lo hi tbl (fun tbl j => set tbl j init)).
Proof. intros Hi Ht. apply same_down; [exact Ht|]. intros j t _ H. apply same_set; auto. Qed.

Lemma knap_forward_same B T cap nz size ws msgs tbl : (0 <= B)%Z -> (Z.of_nat size * B <= N)%Z ->
  Forall (on B) msgs -> mat (on 0) tbl ->
  same (mat (on (Z.of_nat size * B))) (forward_f rnd T cap nz size ws msgs tbl) (forward T cap nz size ws msgs tbl).
Proof.
  intros HB L Hm Ht. unfold forward_f, forward. cbv zeta.
  assert (Hi : Forall (on 0) (n0 :: repeat PInf cap)).
  { constructor; [apply on_0; lia|]. apply Forall_repeat. exact I. }
  apply same_bind with (P := mat (on 0)); [apply same_set; auto|]. clear tbl Ht. intros tbl Ht.
  skip. intros z0 _. apply same_bind with (P := mat (on 0)).
  { destruct (z0 =? 0); [keep|]. apply (fill_up 0 0 z0 _ 1); assumption. }
  clear tbl Ht. intros tbl Ht.
  apply same_bind with (P := fun st => mat (on (Z.of_nat size * B)) (fst st) /\ Forall (on (Z.of_nat size * B)) (snd st)).
  - apply (same_for_count (fun l st => mat (on (Z.of_nat l * B)) (fst st) /\ Forall (on (Z.of_nat l * B)) (snd st))).
    + split; assumption.
    + clear tbl Ht Hi. intros l [tbl init] Hl [Ht Hi]. cbn [fst snd] in *.
      skip. intros t _. skip. intros w _.
      apply same_bind with (P := on B); [apply same_get; exact Hm|]. intros m Hmm.
      replace (Z.of_nat (l + 1) * B)%Z with (Z.of_nat l * B + B)%Z by nia.
      eapply same_bind; [apply fwd_stage_same with (S := (Z.of_nat l * B)%Z) (B := B); auto; nia|].
      clear tbl Ht. intros tbl Ht.
      apply same_bind with (P := Forall (on (Z.of_nat l * B + B))); [apply same_get; exact Ht|].
      clear init Hi. intros init Hi.
      apply same_bind with (P := mat (on (Z.of_nat l * B + B))).
      2:{ intros t2 H2. apply same_ret; [reflexivity | split; assumption]. }
      destruct (length nz =? T); [keep|].
      skip. intros found _. destruct found; [keep|].
      skip. intros last _. destruct ((last <=? t + 1) && (t + 1 <? T)); [apply (fill_up _ _ _ _ 1); assumption|].
      destruct (t + 1 <? last); [|keep]. skip. intros next _. skip. intros z _.
      apply (fill_up _ _ _ _ 1); assumption.
  - intros [t i] [H _]. apply same_ret; auto.
Qed.
Lemma knap_backward_same B T cap nz size ws msgs tbl : (0 <= B)%Z -> (Z.of_nat size * B <= N)%Z ->
  Forall (on B) msgs -> mat (on 0) tbl ->
  same (mat (on (Z.of_nat size * B))) (backward_f rnd T cap nz size ws msgs tbl) (backward T cap nz size ws msgs tbl).
Proof.
  intros HB L Hm Ht. unfold backward_f, backward. cbv zeta.
  assert (Hi : Forall (on 0) (repeat n0 (cap + 1))) by (apply Forall_repeat, on_0; lia).
  apply same_bind with (P := mat (on 0)); [apply same_set; auto|]. clear tbl Ht. intros tbl Ht.
  skip. intros zl _. apply same_bind with (P := mat (on 0)).
  { destruct (zl + 1 =? T); [keep|]. skip. intros z0 _. apply fill_down; assumption. }
  clear tbl Ht. intros tbl Ht.
  apply same_bind with (P := fun st => mat (on (Z.of_nat size * B)) (fst st) /\ Forall (on (Z.of_nat size * B)) (snd st)).
  - apply (same_down_count (fun l st => mat (on (Z.of_nat l * B)) (fst st) /\ Forall (on (Z.of_nat l * B)) (snd st))).
    + split; assumption.
    + clear tbl Ht Hi. intros k l [tbl init] Hl Hk [Ht Hi]. cbn [fst snd] in *.
      skip. intros t _. skip. intros w _.
      apply same_bind with (P := on B); [apply same_get; exact Hm|]. intros m Hmm.
      replace (Z.of_nat (k + 1) * B)%Z with (Z.of_nat k * B + B)%Z by nia.
      eapply same_bind; [apply bwd_stage_same with (S := (Z.of_nat k * B)%Z) (B := B); auto; nia|].
      clear tbl Ht. intros tbl Ht.
      apply same_bind with (P := Forall (on (Z.of_nat k * B + B))); [apply same_get; exact Ht|].
      clear init Hi. intros init Hi.
      apply same_bind with (P := mat (on (Z.of_nat k * B + B))).
      2:{ intros t2 H2. apply same_ret; [reflexivity | split; assumption]. }
      destruct (size - 1 =? T); [keep|]. destruct t as [|t1]; [keep|].
      skip. intros found _. destruct found; [keep|].
      skip. intros z0 _. destruct (t1 <=? z0); [apply fill_down; assumption|].
      skip. intros next _. skip. intros zp _. apply fill_down; assumption.
  - intros [t i] [H _]. apply same_ret; auto.
Qed.
Lemma path_same S B cap t w m fwd bwd : (0 <= S)%Z -> (2 * S + B <= N)%Z -> (0 <= B)%Z ->
  on B m -> mat (on S) fwd -> mat (on S) bwd ->
  same (fun r => Forall (on (2 * S + B)) (fst r) /\ Forall (on (2 * S)) (snd r))
    (path_metrics_f rnd cap t w m fwd bwd) (path_metrics cap t w m fwd bwd).
Proof.
  intros HS L HB Hm Hf Hb. unfold path_metrics_f, path_metrics.
  assert (Gf : forall i j, same (on S) (get2 fwd i j) (get2 fwd i j)) by (intros; apply same_get2; exact Hf).
  assert (Gb : forall i j, same (on S) (get2 bwd i j) (get2 bwd i j)) by (intros; apply same_get2; exact Hb).
  assert (One : forall f b, on S f -> on S b -> fadd rnd f b = nadd f b /\ on (2 * S) (nadd f b)
    /\ fadd rnd (nadd f b) m = nadd (nadd f b) m /\ on (2 * S + B) (nadd (nadd f b) m)).
  { intros f b F G. destruct (add_exact S S f b F G) as [E1 F1]; [lia|].
    destruct (add_exact _ B _ m F1 Hm) as [E2 F2]; [lia|]. replace (2 * S)%Z with (S + S)%Z by lia. auto. }
  destruct (t =? 0).
  - apply same_bind with (P := on S); [apply Gf|]. intros f F. apply same_bind with (P := on S); [apply Gb|]. intros b G.
    apply same_bind with (P := on S); [apply Gb|]. intros b0 G0.
    destruct (One f b F G) as (E1 & F1 & E2 & F2). destruct (One f b0 F G0) as (E3 & F3 & _).
    apply same_ret; [rewrite E1, E2, E3; reflexivity|]. split; constructor; auto.
  - apply same_for; [split; constructor|]. intros i [solid dash] _ [H1 H2]. cbn [fst snd] in *.
    apply same_bind with (P := Forall (on (2 * S + B))).
    + destruct (i + w <=? cap); [|keep].
      apply same_bind with (P := on S); [apply Gf|]. intros f F. apply same_bind with (P := on S); [apply Gb|]. intros b G.
      destruct (One f b F G) as (E1 & F1 & E2 & F2). apply same_ret; [rewrite E1, E2; reflexivity|].
      apply Forall_app. auto.
    + intros so Hso. apply same_bind with (P := on S); [apply Gf|]. intros f F.
      apply same_bind with (P := on S); [apply Gb|]. intros b G. destruct (One f b F G) as (E1 & F1 & _).
      apply same_ret; [rewrite E1; reflexivity|]. split; cbn [fst snd]; [exact Hso|]. apply Forall_app. auto.
Qed.
Lemma department_same B R T cap nz size ws msgs out : (0 <= B)%Z ->
  ((4 * Z.of_nat size + 2) * B <= R)%Z -> (R <= N)%Z -> Forall (on B) msgs -> Forall (on R) out ->
  same (Forall (on R)) (department_update_f rnd T cap nz size ws msgs out) (department_update T cap nz size ws msgs out).
Proof.
  intros HB LR LN Hm Ho. unfold department_update_f, department_update. cbv zeta.
  set (S := (Z.of_nat size * B)%Z). assert (HS : (0 <= S)%Z) by (unfold S; nia).
  assert (L4 : (4 * S + 2 * B <= R)%Z) by (unfold S; nia).
  assert (H0 : mat (on 0) (repeat (repeat n0 (cap + 1)) (T + 1))) by (apply Forall_repeat, Forall_repeat, on_0; lia).
  apply same_bind with (P := mat (on S)); [apply knap_forward_same; auto; fold S; lia|]. intros fwd Hf.
  apply same_bind with (P := mat (on S)); [apply knap_backward_same; auto; fold S; lia|]. intros bwd Hb.
  unfold extrinsic_row_f, extrinsic_row. apply same_for; [exact Ho|]. clear out Ho. intros t out _ Ho.
  skip. intros w _. destruct (w =? 0); [apply same_set; auto; apply on_0; nia|].
  apply same_bind with (P := on B); [apply same_get; exact Hm|]. intros m Hmm.
  eapply same_bind; [apply path_same with (S := S) (B := B); auto; lia|].
  intros [solid dash] [H1 H2]. cbn [fst snd] in *.
  apply same_bind with (P := on (2 * S + B)).
  { apply same_let. intros a. apply min_element_on. exact H1. }
  intros s Hs. apply same_bind with (P := on (2 * S)).
  { apply same_let. intros a. apply min_element_on. exact H2. }
  intros d Hd. destruct (sub_exact _ _ s d Hs Hd) as [E1 F1]; [lia|].
  destruct (sub_exact _ _ _ m F1 Hmm) as [E2 F2]; [lia|].
  apply same_set; auto; [rewrite E1, E2; reflexivity|]. eapply on_mono; [|exact F2]. lia.
Qed.

(** ** The other updates *)
Lemma team_to_oric_same A C D R T extr t2o reward : (0 <= A)%Z -> (0 <= C)%Z ->
  (Z.of_nat D * A + C <= R)%Z -> (R <= N)%Z ->
  mat (on A) extr -> length extr <= D -> Forall (on C) reward -> Forall (on R) t2o ->
  same (Forall (on R)) (team_to_oric_update_f rnd T extr t2o reward) (team_to_oric_update T extr t2o reward).
Proof.
  intros HA HC LR LN He Hl Hr Ht. unfold team_to_oric_update_f, team_to_oric_update.
  apply same_bind with (P := Forall (on (Z.of_nat (length extr) * A))).
  - apply (same_for_count (fun i => Forall (on (Z.of_nat i * A)))).
    + apply Forall_repeat, on_0. lia.
    + intros i s Hi Hs. apply same_bind with (P := Forall (on A)); [apply same_get; exact He|]. intros row Hrow.
      apply (plus_same u N rnd Hrnd) with (A := A) (B := (Z.of_nat i * A)%Z); auto; [|nia|nia].
      eapply row_mono; [|exact Hs]. nia.
  - intros inter Hi. apply (plus_same u N rnd Hrnd) with (A := (Z.of_nat (length extr) * A)%Z) (B := C); auto; nia.
Qed.
Lemma project_to_oric_same A C R p2e e2o reward : (A + C <= R)%Z -> (R <= N)%Z ->
  mat (on A) p2e -> mat (on C) reward -> mat (on R) e2o ->
  same (mat (on R)) (project_to_oric_update_f rnd p2e e2o reward) (project_to_oric_update p2e e2o reward).
Proof.
  intros L LN Hp Hr He. unfold project_to_oric_update_f, project_to_oric_update.
  apply same_for; [exact He|]. clear e2o He. intros p e2o _ He.
  apply same_bind with (P := Forall (on A)); [apply same_get; exact Hp|]. intros a Ha.
  apply same_bind with (P := Forall (on C)); [apply same_get; exact Hr|]. intros r Hrr.
  apply same_bind with (P := Forall (on R)); [apply same_get; exact He|]. intros o Ho.
  apply same_bind with (P := Forall (on R)).
  - apply (plus_same u N rnd Hrnd) with (A := A) (B := C); auto.
  - intros o' Ho'. apply same_set; auto.
Qed.
Lemma oric_to_team_same R e2o o2t : on R oric_cap -> mat (on R) e2o -> Forall (on R) o2t ->
  same (Forall (on R)) (oric_to_team_update e2o o2t) (oric_to_team_update e2o o2t).
Proof.
  intros Hc He Ho. unfold oric_to_team_update. apply same_for; [exact Ho|]. clear Ho. intros t o _ Ho.
  apply same_bind with (P := on R).
  - apply same_for; [exact Hc|]. intros p mv _ Hmv.
    apply same_bind with (P := on R); [apply same_get2; exact He|]. intros e Hee.
    apply same_ret; [reflexivity|]. destruct (nlt e mv); assumption.
  - intros v Hv. apply same_set; auto.
Qed.
Lemma intrinsic_same A B C R T o2e p2e reward out : (A + B + C <= R)%Z -> (R <= N)%Z -> (0 <= C)%Z ->
  mat (on A) o2e -> mat (on B) p2e -> mat (on C) reward -> Forall (on R) out ->
  same (Forall (on R)) (intrinsic_out_mwm_f rnd T o2e p2e reward out) (intrinsic_out_mwm T o2e p2e reward out).
Proof.
  intros L LN HC Ho Hp Hr Hout. unfold intrinsic_out_mwm_f, intrinsic_out_mwm.
  apply same_for; [exact Hout|]. clear out Hout. intros p out _ Hout.
  apply same_bind with (P := Forall (on C)); [apply same_get; exact Hr|]. intros row Hrow.
  apply same_for; [exact Hout|]. clear out Hout. intros t out _ Hout.
  apply same_bind with (P := on A); [apply same_get2; exact Ho|]. intros a Ha.
  apply same_bind with (P := on B); [apply same_get2; exact Hp|]. intros b Hb.
  apply same_bind with (P := on C); [apply same_get; exact Hrow|]. intros c Hc.
  destruct (add_exact A B a b Ha Hb) as [E1 F1]; [lia|]. destruct (add_exact _ C _ c F1 Hc) as [E2 F2]; [lia|].
  apply same_set; auto; [rewrite E1, E2; reflexivity|]. eapply on_mono; [|exact F2]. lia.
Qed.
Lemma team_to_knapsack_same A C O R D T nzs t2k reward extr oric :
  (0 <= A)%Z -> (0 <= C)%Z -> (0 <= O)%Z -> (C + A + O <= R)%Z -> (R <= N)%Z ->
  Forall (on C) reward -> mat (on A) extr -> Forall (on O) oric -> mat (on R) t2k ->
  same (mat (on R)) (team_to_knapsack_f rnd D T nzs t2k reward extr oric)
       (team_to_knapsack D T nzs t2k reward extr oric).
Proof.
  intros HA HC HO L LN Hr He Ho Ht. unfold team_to_knapsack_f, team_to_knapsack.
  apply same_for; [exact Ht|]. clear t2k Ht. intros d t2k _ Ht.
  skip. intros unique _. skip. intros remaining _.
  apply same_bind with (P := fun st => mat (on R) (fst st)).
  - apply same_fold; [exact Ht|]. clear t2k Ht unique. intros t [t2k unique] _ Ht. cbn [fst snd] in *.
    unfold share_department_f, share_department. skip. intros a _. skip. intros b _. skip. intros inter _.
    skip. intros _ _. apply same_fold; [exact Ht|]. clear t2k Ht unique. intros l [t2k unique] _ Ht. cbn [fst snd] in *.
    apply same_bind with (P := on C); [apply same_get; exact Hr|]. intros r Hrr.
    apply same_bind with (P := on A); [apply same_get2; exact He|]. intros e Hee.
    apply same_bind with (P := on O); [apply same_get; exact Ho|]. intros o Hoo.
    destruct (add_exact C A r e Hrr Hee) as [E1 F1]; [lia|].
    destruct (add_exact _ O _ o F1 Hoo) as [E2 F2]; [lia|].
    apply same_bind with (P := mat (on R)).
    + apply same_set2; auto; [rewrite E1, E2; reflexivity|]. eapply on_mono; [|exact F2]. lia.
    + intros t2 H2. skip. intros un _. apply same_ret; auto.
  - clear t2k Ht unique. intros [t2k unique] Ht. cbn [fst] in Ht. apply same_fold; [exact Ht|].
    clear t2k Ht. intros l t2k _ Ht.
    apply same_bind with (P := on C); [apply same_get; exact Hr|]. intros r Hrr.
    apply same_bind with (P := on O); [apply same_get; exact Ho|]. intros o Hoo.
    destruct (add_exact C O r o Hrr Hoo) as [E1 F1]; [lia|].
    apply same_set2; auto. eapply on_mono; [|exact F1]. lia.
Qed.

(** ** One iteration *)
Definition kc_all (P : num -> Prop) (st : kc_state) : Prop :=
  mat P (kc_t2k st) /\ mat P (kc_dummy st) /\ mat P (kc_extr st) /\ Forall P (kc_team2oric st)
  /\ Forall P (kc_oric2team st) /\ mat P (kc_eq2oric st) /\ mat P (kc_oric2eq st) /\ mat P (kc_eq2project st)
  /\ mat P (kc_project2eq st) /\ Forall P (kc_intrinsic st).
Lemma kc_all_impl (P Q : num -> Prop) st : (forall x, P x -> Q x) -> kc_all P st -> kc_all Q st.
Proof.
  intros H (A1 & A2 & A3 & A4 & A5 & A6 & A7 & A8 & A9 & A10).
  assert (V : forall l, Forall P l -> Forall Q l) by (intros l; apply Forall_impl; exact H).
  assert (M : forall l, mat P l -> mat Q l) by (intros l; apply Forall_impl; exact V).
  repeat split; auto.
Qed.
Lemma kc_all_and (P Q R : num -> Prop) st : (forall x, P x -> Q x -> R x) -> kc_all P st -> kc_all Q st -> kc_all R st.
Proof.
  intros H (A1 & A2 & A3 & A4 & A5 & A6 & A7 & A8 & A9 & A10) (B1 & B2 & B3 & B4 & B5 & B6 & B7 & B8 & B9 & B10).
  assert (V : forall l, Forall P l -> Forall Q l -> Forall R l).
  { intros l F G. rewrite Forall_forall in *. auto. }
  assert (M : forall l, mat P l -> mat Q l -> mat R l).
  { intros l F G. apply Forall_forall. intros r Hr.
    apply V; [exact (proj1 (Forall_forall _ _) F r Hr) | exact (proj1 (Forall_forall _ _) G r Hr)]. }
  repeat split; auto.
Qed.

Section Run.
Variables (flag : bool) (alpha : num) (T D P : nat) (inp : kc_inputs) (sizes : list nat) (C : Z).
Hypothesis Hf : unfiltered flag alpha.
Hypothesis HC : (0 <= C)%Z.
Hypothesis Hrt : Forall (on C) (kc_reward_team inp).
Hypothesis Hrp : mat (on C) (kc_reward_project inp).
Hypothesis Ht2k : mat (on C) (kc_team2knapsack inp).
Hypothesis Hsz : Forall (fun s => s <= T) sizes.

Lemma filter_at_on B iter i dummy old out : mat (on B) dummy -> mat (on B) out ->
  same (fun r => mat (on B) (fst r) /\ length (fst r) = length out)
    (filter_at_f rnd flag alpha iter i dummy old out) (filter_at flag alpha iter i dummy old out).
Proof.
  intros Hd Ho.
  destruct (filter_at_same rnd flag alpha iter i (Forall (on B)) dummy old out Hf) as [E F].
  - intros d r x Ed Er Ex. destruct (same_copy (on B) d r) as [_ K];
      [exact (proj1 (Forall_forall _ _) Hd d (nth_error_In _ _ Ed)) | exact (proj1 (Forall_forall _ _) Ho r (nth_error_In _ _ Er))|].
    exact (K x Ex).
  - exact Ho.
  - split; [exact E|]. intros [o' od'] R. destruct (F _ R) as [F1 F2]. cbn [fst snd] in *. split; [exact F1|].
    unfold filter_at in R. unfold unfiltered in Hf. rewrite Hf in R.
    destruct (get dummy i) as [d|]; [|discriminate R]. cbn [bind] in R.
    destruct (get out i) as [r|]; [|discriminate R]. cbn [bind] in R.
    unfold filter_row in R. rewrite Hf in R.
    destruct (copy_into d r) as [x|]; [|discriminate R]. cbn [bind] in R.
    unfold set in R. destruct (i <? length out); [|discriminate R]. cbn [bind] in R.
    injection R as <- _. apply upd_length.
Qed.

(** growth of the bound in one iteration *)
Definition kc_round : Z := ((4 * Z.of_nat D + 1) * (4 * Z.of_nat T + 2) + 9)%Z.
Lemma kc_step_same B st iter : (C <= B)%Z -> on B oric_cap -> (kc_round * B <= N)%Z ->
  kc_all (on B) st -> length (kc_extr st) <= D ->
  same (fun st' => kc_all (on (kc_round * B)) st' /\ length (kc_extr st') <= D)
    (kc_step_f rnd flag alpha T D P inp sizes st iter) (kc_step flag alpha T D P inp sizes st iter).
Proof.
  intros LC Hcap LN (A1 & A2 & A3 & A4 & A5 & A6 & A7 & A8 & A9 & A10) Hl.
  assert (HB : (0 <= B)%Z) by lia.
  set (K := ((4 * Z.of_nat T + 2) * B)%Z). assert (HK : (2 * B <= K)%Z) by (unfold K; nia).
  assert (HDK : (0 <= Z.of_nat D * K)%Z) by nia.
  assert (HX : (kc_round * B = 4 * (Z.of_nat D * K) + K + 9 * B)%Z) by (unfold kc_round, K; ring).
  rewrite HX in *. set (DK := (Z.of_nat D * K)%Z) in *. set (X := (4 * DK + K + 9 * B)%Z) in *.
  unfold kc_step_f, kc_step.
  apply same_bind with (P := fun r => mat (on K) (fst (fst r)) /\ mat (on K) (snd r) /\ length (snd r) <= D).
  { apply same_for; [cbn [fst snd]; split; [|split]; [eapply mat_mono; [|exact A2]; lia | eapply mat_mono; [|exact A3]; lia | exact Hl]|].
    intros d [[dummy old] extr] _ (H1 & H2 & H3). cbn [fst snd] in *. unfold kc_department_f, kc_department.
    skip. intros cap _. skip. intros nz _.
    apply same_bind with (P := fun s => s <= T); [apply same_get; exact Hsz|]. intros size Hs.
    skip. intros ws _. apply same_bind with (P := Forall (on B)); [apply same_get; exact A1|]. intros ms Hms.
    apply same_bind with (P := Forall (on K)); [apply same_get; exact H1|]. intros row Hrow.
    apply same_bind with (P := Forall (on K)); [apply department_same with (B := B); auto; unfold K, X in *; nia|].
    clear row Hrow. intros row Hrow.
    apply same_bind with (P := mat (on K)); [apply same_set; auto|]. clear dummy H1. intros dummy H1.
    apply same_bind with (P := fun r => mat (on K) (fst r) /\ length (fst r) = length extr); [apply filter_at_on; auto|].
    intros [ex od] [H4 H5]. cbn [fst] in *. apply same_ret; [reflexivity|]. cbn [fst snd].
    split; [exact H1|]. split; [exact H4 | lia]. }
  intros [[dummy old] extr] (H1 & H2 & H3). cbn [fst snd] in *.
  assert (VM : forall a b l, (a <= b)%Z -> Forall (on a) l -> Forall (on b) l) by (intros; eapply row_mono; eauto).
  assert (MM : forall a b l, (a <= b)%Z -> mat (on a) l -> mat (on b) l) by (intros; eapply mat_mono; eauto).
  apply same_bind with (P := Forall (on (DK + B))).
  { apply team_to_oric_same with (A := K) (C := C) (D := D); auto; try (unfold X, DK in *; lia).
    apply (VM B); [lia | exact A4]. }
  intros t2o Ht2o.
  apply same_bind with (P := fun r => mat (on (2 * DK + 3 * B)) (fst r) /\ mat (on (2 * DK + 4 * B)) (snd r)).
  { eapply same_weaken; [|apply oric_same with (A := (DK + B)%Z) (B := B) (C := C); auto; try (unfold X in *; lia)].
    - intros r [F1 F2]. split; eapply mat_mono; [|exact F1| |exact F2]; lia.
    - apply (MM B); [lia | exact A7].
    - apply (MM B); [lia | exact A8]. }
  intros [o2e e2p] [Ho2e He2p]. cbn [fst snd] in *.
  apply same_bind with (P := mat (on (2 * DK + 4 * B))).
  { apply project_same; auto; try (unfold X in *; lia). apply (MM B); [lia | exact A9]. }
  intros p2e Hp2e.
  apply same_bind with (P := mat (on (2 * DK + 5 * B))).
  { apply project_to_oric_same with (A := (2 * DK + 4 * B)%Z) (C := C); auto; try (unfold X in *; lia).
    apply (MM B); [lia | exact A6]. }
  intros e2o He2o.
  apply same_bind with (P := Forall (on (2 * DK + 5 * B))).
  { apply oric_to_team_same; auto; [eapply on_mono; [|exact Hcap]; lia | apply (VM B); [lia | exact A5]]. }
  intros o2t Ho2t.
  apply same_bind with (P := Forall (on X)).
  { apply intrinsic_same with (A := (2 * DK + 3 * B)%Z) (B := (2 * DK + 4 * B)%Z) (C := C); auto; try (unfold X in *; lia).
    apply (VM B); [unfold X; lia | exact A10]. }
  intros intr Hintr.
  apply same_bind with (P := mat (on X)).
  { apply team_to_knapsack_same with (A := K) (C := C) (O := (2 * DK + 5 * B)%Z); auto; try (unfold X in *; lia).
    apply (MM B); [unfold X; lia | exact A1]. }
  intros t2k Htk. apply same_ret; [reflexivity|]. split; [|exact H3].
  repeat split; cbn [kc_t2k kc_dummy kc_extr kc_team2oric kc_oric2team kc_eq2oric kc_oric2eq kc_eq2project kc_project2eq kc_intrinsic];
    auto; first [eapply mat_mono; [|eassumption]; unfold X; lia | eapply row_mono; [|eassumption]; unfold X; lia].
Qed.

Lemma kc_init_all B : (C <= B)%Z -> kc_all (on B) (kc_init T D P (kc_team2knapsack inp))
  /\ length (kc_extr (kc_init T D P (kc_team2knapsack inp))) <= D.
Proof.
  intros L. assert (0 <= B)%Z by lia. split.
  - repeat split; cbn [kc_init kc_t2k kc_dummy kc_extr kc_team2oric kc_oric2team kc_eq2oric kc_oric2eq kc_eq2project kc_project2eq kc_intrinsic];
      try (apply mat_zeros; assumption); try (apply Forall_repeat, on_0; assumption).
    eapply mat_mono; [exact L | exact Ht2k].
  - cbn. unfold zeros. rewrite repeat_length. lia.
Qed.
Lemma kc_finish_same A st : (0 <= A)%Z -> ((Z.of_nat D + 1) * A <= N)%Z -> kc_all (on A) st -> length (kc_extr st) <= D ->
  extrinsic_output_team_f rnd (kc_extr st) (kc_oric2team st) (repeat n0 T)
  = extrinsic_output_team (kc_extr st) (kc_oric2team st) (repeat n0 T).
Proof.
  intros HA L (A1 & A2 & A3 & A4 & A5 & A6 & A7 & A8 & A9 & A10) Hl.
  unfold extrinsic_output_team_f, extrinsic_output_team.
  apply (proj1 (same_bind (Forall (on A)) (fun _ => True) _ _ _ _
    (same_copy _ _ _ A5 (Forall_repeat _ n0 T (on_0 u A HA)))
    (fun o Ho => same_weaken _ _ _ _ (fun _ _ => I) (rows_onto_same u N rnd Hrnd A A D (kc_extr st) o A3 Ho Hl HA ltac:(nia))))).
Qed.
Lemma kc_run_same iters B : (C <= B)%Z -> (0 < u)%Qc -> on B oric_cap -> (kc_round * B <= N)%Z ->
  (forall t st, t <= iters ->
     for_up 0 t (kc_init T D P (kc_team2knapsack inp)) (kc_step flag alpha T D P inp sizes) = Some st ->
     kc_all (small u B) st) ->
  kc_iterate_f rnd flag alpha T D P iters inp sizes = kc_iterate flag alpha T D P iters inp sizes.
Proof.
  intros HB Hu Hcap L Hw. unfold kc_iterate_f, kc_iterate.
  destruct (steps_same (kc_step_f rnd flag alpha T D P inp sizes) (kc_step flag alpha T D P inp sizes)
    (fun st => kc_all (on B) st /\ length (kc_extr st) <= D)
    (fun st => kc_all (on (kc_round * B)) st /\ length (kc_extr st) <= D)
    (kc_init T D P (kc_team2knapsack inp)) iters) as [E F].
  - apply kc_init_all. exact HB.
  - intros t st Ht [H1 H2]. apply kc_step_same; auto.
  - intros t st Ht R [H1 H2]. split; [|exact H2]. eapply kc_all_and; [|exact H1|exact (Hw t st Ht R)].
    intros x. apply on_small. exact Hu.
  - rewrite E. clear E. destruct (for_up 0 iters _ _) as [st|]; [|reflexivity]. cbn [bind].
    destruct (F st eq_refl) as [H1 H2]. rewrite (kc_finish_same B st); auto; [lia|].
    unfold kc_round in L. assert (0 <= Z.of_nat D * B)%Z by nia. assert (0 <= Z.of_nat T * B)%Z by nia.
    assert (0 <= Z.of_nat D * (Z.of_nat T * B))%Z by nia. nia.
Qed.
(** bound without looking at the run *)
Lemma kc_short_same iters B : (C <= B)%Z -> on B oric_cap -> (kc_round ^ Z.of_nat (iters + 1) * B <= N)%Z ->
  kc_iterate_f rnd flag alpha T D P iters inp sizes = kc_iterate flag alpha T D P iters inp sizes.
Proof.
  intros HB Hcap L. unfold kc_iterate_f, kc_iterate.
  assert (G1 : (11 <= kc_round)%Z) by (unfold kc_round; nia).
  assert (GP : forall i, (1 <= kc_round ^ Z.of_nat i)%Z).
  { intros i. pose proof (Z.pow_pos_nonneg kc_round (Z.of_nat i)). lia. }
  assert (GS : forall i, (kc_round ^ Z.of_nat (i + 1) = kc_round * kc_round ^ Z.of_nat i)%Z).
  { intros i. replace (Z.of_nat (i + 1)) with (Z.succ (Z.of_nat i)) by lia. apply Z.pow_succ_r. lia. }
  destruct (same_for_count (fun i st => kc_all (on (kc_round ^ Z.of_nat i * B)) st /\ length (kc_extr st) <= D)
    iters (kc_step_f rnd flag alpha T D P inp sizes) (kc_step flag alpha T D P inp sizes)
    (kc_init T D P (kc_team2knapsack inp))) as [E F].
  - change (Z.of_nat 0) with 0%Z. rewrite Z.pow_0_r, Z.mul_1_l. apply kc_init_all. exact HB.
  - intros i st Hi [H1 H2]. rewrite GS, <- Z.mul_assoc. specialize (GP i).
    apply kc_step_same; auto; [nia | eapply on_mono; [|exact Hcap]; nia |].
    rewrite Z.mul_assoc, <- GS.
    assert (kc_round ^ Z.of_nat (i + 1) <= kc_round ^ Z.of_nat (iters + 1))%Z by (apply Z.pow_le_mono_r; lia). nia.
  - rewrite E. clear E. destruct (for_up 0 iters _ _) as [st|]; [|reflexivity]. cbn [bind].
    destruct (F st eq_refl) as [H1 H2]. specialize (GP iters). rewrite GS in L.
    rewrite (kc_finish_same (kc_round ^ Z.of_nat iters * B) st); auto; [nia|].
    assert (Z.of_nat D + 1 <= kc_round)%Z by (unfold kc_round; nia).
    set (Y := (kc_round ^ Z.of_nat iters * B)%Z) in *. assert (0 <= Y)%Z by (unfold Y; nia).
    rewrite <- Z.mul_assoc in L. fold Y in L. nia.
Qed.
End Run.
End Kc.
