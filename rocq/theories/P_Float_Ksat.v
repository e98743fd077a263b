(** * K-SAT runs that need no rounding. *)
From Verif Require Import Num NumFacts Arr ArrFacts M_Equality M_Filter M_Ksat M_InOut M_Runs M_Float P_Float
  P_Float_Tsp.
Local Open Scope nat_scope.

(** tables whose row [i] has its own property *)
Definition rows_ok {A} (P : nat -> A -> Prop) (m : list (list A)) : Prop :=
  forall i r, nth_error m i = Some r -> Forall (P i) r.
Lemma rows_get2 {A} (P : nat -> A -> Prop) m i j : rows_ok P m -> same (P i) (get2 m i j) (get2 m i j).
Proof.
  intros H. unfold get2, get. destruct (nth_error m i) as [r|] eqn:E; [|apply same_none]. cbn [bind].
  apply same_get. exact (H i r E).
Qed.
Lemma nth_upd {A} v : forall (l : list A) i j x, nth_error (upd l i v) j = Some x ->
  (i = j /\ x = v) \/ (i <> j /\ nth_error l j = Some x).
Proof.
  induction l as [|a l IH]; intros i j x H; [destruct j; discriminate H|].
  destruct i, j; cbn in H; auto.
  - left. injection H as <-. auto.
  - destruct (IH i j x H) as [[-> ->]|[N E]]; [left; auto | right; split; [congruence | exact E]].
Qed.
Lemma rows_set {A} (P : nat -> A -> Prop) m i r : rows_ok P m -> Forall (P i) r ->
  same (rows_ok P) (set m i r) (set m i r).
Proof.
  intros H Hr. unfold set. destruct (i <? length m); [|apply same_none]. apply same_ret; [reflexivity|].
  intros j x E. destruct (nth_upd r m i j x E) as [[<- ->]|[_ E']]; [exact Hr | exact (H j x E')].
Qed.
Lemma rows_set2 {A} (P : nat -> A -> Prop) m i j v w : v = w -> rows_ok P m -> P i w ->
  same (rows_ok P) (set2 m i j v) (set2 m i j w).
Proof.
  intros -> H Hv. unfold set2, get. destruct (nth_error m i) as [r|] eqn:E; [|apply same_none]. cbn [bind].
  apply same_bind with (P := Forall (P i)); [apply same_set; [reflexivity | exact (H i r E) | exact Hv]|].
  intros r' Hr'. apply rows_set; assumption.
Qed.

Section Ksat.
Variables (u : Qc) (N : Z) (rnd : Qc -> num).
Hypothesis Hrnd : exact_upto u N rnd.
Notation on := (on u).
Notation add_exact := (add_exact u N rnd Hrnd).
Notation sub_exact := (sub_exact u N rnd Hrnd).

Lemma zero_rows_on B m : (0 <= B)%Z -> mat (on B) (zero_rows m).
Proof.
  intros HB. unfold zero_rows. apply Forall_map, Forall_forall. intros r _. apply Forall_map, Forall_forall.
  intros x _. apply on_0. exact HB.
Qed.
Definition sign (t : Z) : Prop := t = 1%Z \/ t = (-1)%Z.
Lemma cost_same B msgs c conx types stage : mat (on B) msgs -> Forall sign types -> (B <= N)%Z ->
  same (on B) (row <- get msgs c ;; lit_cost_f rnd row conx types stage)
              (row <- get msgs c ;; lit_cost row conx types stage).
Proof.
  intros Hm Ht L. apply same_bind with (P := Forall (on B)); [apply same_get; exact Hm|]. intros row Hr.
  unfold lit_cost_f, lit_cost. apply same_bind with (P := fun _ => True); [apply same_any|]. intros v _.
  apply same_bind with (P := on B); [apply same_get; exact Hr|]. intros m Hmm.
  apply same_bind with (P := sign); [apply same_get; exact Ht|]. intros t Hs.
  destruct (mul_sign_exact u N rnd Hrnd B m t Hs Hmm L) as [E F]. apply same_ret; assumption.
Qed.

(** forward and backward tables of one clause *)
Definition fw (B : Z) (i : nat) : num -> Prop := on (Z.of_nat i * B).
Definition bw (k : nat) (B : Z) (i : nat) : num -> Prop := on (Z.of_nat (k - i) * B).
Lemma forward_same B k cf c tbl : (0 <= B)%Z -> (Z.of_nat k * B <= N)%Z ->
  (forall s, same (on B) (cf s) (c s)) -> rows_ok (fw B) tbl ->
  same (rows_ok (fw B)) (ksat_forward_f rnd k cf tbl) (ksat_forward k c tbl).
Proof.
  intros HB L Hc Ht. unfold ksat_forward_f, ksat_forward.
  apply same_bind with (P := rows_ok (fw B)).
  { apply rows_set; [exact Ht|]. constructor; [apply on_0; lia | constructor; [exact I | constructor]]. }
  clear tbl Ht. intros tbl Ht. apply same_for; [exact Ht|]. clear tbl Ht. intros s tbl Hs Ht.
  apply same_bind with (P := fw B s); [apply rows_get2; exact Ht|]. intros f0 H0.
  apply same_bind with (P := rows_ok (fw B)).
  { apply rows_set2; [reflexivity | exact Ht|]. eapply on_mono; [|exact H0]. nia. }
  clear tbl Ht. intros tbl Ht.
  apply same_bind with (P := fw B s); [apply rows_get2; exact Ht|]. intros f1 H1.
  apply same_bind with (P := fw B s); [apply rows_get2; exact Ht|]. intros f0' H0'.
  apply same_bind with (P := on B); [apply Hc|]. intros x Hx.
  assert (Hx0 : on B (nmin n0 x)) by (apply on_min; [apply on_0; lia | exact Hx]).
  destruct (add_exact _ _ f1 (nmin n0 x) H1 Hx0) as [E1 F1]; [nia|].
  destruct (add_exact _ _ f0' x H0' Hx) as [E2 F2]; [nia|].
  apply rows_set2; [rewrite E1, E2; reflexivity | exact Ht|].
  apply on_min; eapply on_mono; [|exact F1| |exact F2]; nia.
Qed.
Lemma backward_same B k cf c tbl : (0 <= B)%Z -> (Z.of_nat k * B <= N)%Z ->
  (forall s, same (on B) (cf s) (c s)) -> rows_ok (bw k B) tbl ->
  same (rows_ok (bw k B)) (ksat_backward_f rnd k cf tbl) (ksat_backward k c tbl).
Proof.
  intros HB L Hc Ht. unfold ksat_backward_f, ksat_backward.
  apply same_bind with (P := rows_ok (bw k B)).
  { apply rows_set; [exact Ht|]. constructor; [apply on_0; nia | constructor; [apply on_0; nia | constructor]]. }
  clear tbl Ht. intros tbl Ht. apply same_down; [exact Ht|]. clear tbl Ht. intros s tbl Hs Ht.
  apply same_bind with (P := on B); [apply Hc|]. intros x Hx.
  apply same_bind with (P := rows_ok (bw k B)).
  { destruct (s =? k - 1).
    - apply rows_set2; [reflexivity | exact Ht|]. eapply on_mono; [|exact Hx]. nia.
    - apply same_bind with (P := bw k B (s + 1)); [apply rows_get2; exact Ht|]. intros b0 H0.
      apply same_bind with (P := bw k B (s + 1)); [apply rows_get2; exact Ht|]. intros b1 H1.
      destruct (add_exact _ _ b1 x H1 Hx) as [E F]; [nia|].
      apply rows_set2; [rewrite E; reflexivity | exact Ht|].
      apply on_min; eapply on_mono; [|exact H0| |exact F]; nia. }
  clear tbl Ht. intros tbl Ht.
  apply same_bind with (P := bw k B (s + 1)); [apply rows_get2; exact Ht|]. intros b1 H1.
  destruct (add_exact _ _ b1 x H1 Hx) as [E F]; [nia|].
  apply rows_set2; [rewrite E; reflexivity | exact Ht|].
  apply on_min; eapply on_mono; [|exact H1| |exact F]; nia.
Qed.
Lemma one_same B k msgs conns types st c : (0 <= B)%Z -> (2 * Z.of_nat k * B <= N)%Z ->
  mat (on B) msgs -> mat sign types ->
  rows_ok (fw B) (fst (fst st)) /\ rows_ok (bw k B) (snd (fst st)) /\ mat (on (2 * Z.of_nat k * B)) (snd st) ->
  same (fun st => rows_ok (fw B) (fst (fst st)) /\ rows_ok (bw k B) (snd (fst st))
                  /\ mat (on (2 * Z.of_nat k * B)) (snd st))
    (ksat_one_f rnd k msgs conns types st c) (ksat_one k msgs conns types st c).
Proof.
  intros HB L Hm Hty (S1 & S2 & S3). destruct st as [[fwd bwd] out]. cbn [fst snd] in *.
  unfold ksat_one_f, ksat_one.
  apply same_bind with (P := fun _ => True); [apply same_any|]. intros conx _.
  apply same_bind with (P := Forall sign); [apply same_get; exact Hty|]. intros ty Ht.
  destruct k as [|k'] eqn:Ek.
  - (* no literals *)
    apply same_bind with (P := rows_ok (fw B)).
    { unfold ksat_forward_f, ksat_forward.
      apply same_bind with (P := rows_ok (fw B)); [|intros t0 H0; apply same_ret; auto].
      apply rows_set; [exact S1|]. constructor; [apply on_0; lia | constructor; [exact I | constructor]]. }
    intros fwd' F'. apply same_bind with (P := rows_ok (bw 0 B)).
    { unfold ksat_backward_f, ksat_backward.
      apply same_bind with (P := rows_ok (bw 0 B)); [|intros t0 H0; apply same_ret; auto].
      apply rows_set; [exact S2|]. constructor; [apply on_0; nia | constructor; [apply on_0; nia | constructor]]. }
    intros bwd' B'. apply same_ret; auto.
  - rewrite <- Ek in *.
    assert (Hc : forall s, same (on B) (row <- get msgs c ;; lit_cost_f rnd row conx ty s)
                                       (row <- get msgs c ;; lit_cost row conx ty s))
      by (intros s; apply cost_same; auto; nia).
    apply same_bind with (P := rows_ok (fw B)); [apply forward_same; auto; nia|]. intros fwd' F'.
    apply same_bind with (P := rows_ok (bw k B)); [apply backward_same; auto; nia|]. intros bwd' B'.
    apply same_bind with (P := mat (on (2 * Z.of_nat k * B))).
    2:{ intros out' O'. apply same_ret; auto. }
    apply same_for; [exact S3|]. clear out S3. intros s out Hs Ho.
    apply same_bind with (P := fw B s); [apply rows_get2; exact F'|]. intros f0 H0.
    apply same_bind with (P := fw B s); [apply rows_get2; exact F'|]. intros f1 H1.
    apply same_bind with (P := bw k B (s + 1)); [apply rows_get2; exact B'|]. intros b1 H2.
    apply same_bind with (P := on B); [apply Hc|]. intros x Hx.
    destruct (add_exact _ _ f0 b1 H0 H2) as [E1 G1]; [nia|].
    destruct (add_exact _ _ _ x G1 Hx) as [E2 G2]; [nia|].
    destruct (add_exact _ _ f1 x H1 Hx) as [E3 G3]; [nia|].
    destruct (add_exact _ _ _ b1 G3 H2) as [E4 G4]; [nia|].
    destruct (add_exact _ _ f1 b1 H1 H2) as [E5 G5]; [nia|].
    assert (Hd : same (on ((Z.of_nat k - 1) * B))
      (if s =? k - 1 then Some (fadd rnd f1 b1)
       else b0 <- get2 bwd' (s + 1) 0 ;; Some (nmin (fadd rnd f0 b0) (fadd rnd f1 b1)))
      (if s =? k - 1 then Some (nadd f1 b1)
       else b0 <- get2 bwd' (s + 1) 0 ;; Some (nmin (nadd f0 b0) (nadd f1 b1)))).
    { destruct (s =? k - 1).
      - apply same_ret; [exact E5|]. eapply on_mono; [|exact G5]. nia.
      - apply same_bind with (P := bw k B (s + 1)); [apply rows_get2; exact B'|]. intros b0 H3.
        destruct (add_exact _ _ f0 b0 H0 H3) as [E6 G6]; [nia|].
        apply same_ret; [rewrite E5, E6; reflexivity|].
        apply on_min; eapply on_mono; [|exact G6| |exact G5]; nia. }
    apply same_bind with (1 := Hd). intros d Hdd.
    apply same_bind with (P := sign); [apply same_get; exact Ht|]. intros t Hsg.
    apply same_bind with (P := fun _ => True); [apply same_any|]. intros v _.
    rewrite E1, E2, E3, E4.
    assert (Gs : on (Z.of_nat k * B) (nmin (nadd (nadd f0 b1) x) (nadd (nadd f1 x) b1)))
      by (apply on_min; eapply on_mono; [|exact G2| |exact G4]; nia).
    destruct (sub_exact _ _ _ d Gs Hdd) as [E6 G6]; [nia|].
    destruct (sub_exact _ _ _ x G6 Hx) as [E7 G7]; [nia|].
    rewrite E6, E7.
    destruct (mul_sign_exact u N rnd Hrnd _ _ t Hsg G7) as [E8 G8]; [nia|]. rewrite E8.
    apply same_bind with (P := fun _ => True); [apply same_any|]. intros old _.
    destruct (nlt _ _); [|apply same_ret; auto].
    apply same_set2; auto. eapply on_mono; [|exact G8]. nia.
Qed.
Lemma update_same B nc k msgs out conns types : (0 <= B)%Z -> (2 * Z.of_nat k * B <= N)%Z ->
  mat (on B) msgs -> mat sign types ->
  same (mat (on (2 * Z.of_nat k * B))) (ksat_update_f rnd nc k msgs out conns types)
       (ksat_update nc k msgs out conns types).
Proof.
  intros HB L Hm Ht. unfold ksat_update_f, ksat_update.
  assert (Z0 : forall (w : nat -> Z) n, (forall i, (0 <= w i)%Z) -> rows_ok (fun i => on (w i)) (repeat [n0; n0] n)).
  { intros w n Hw i r E. apply nth_error_In, repeat_spec in E. subst r.
    constructor; [apply on_0, Hw|]. constructor; [apply on_0, Hw | constructor]. }
  eapply same_bind with (P := fun st => rows_ok (fw B) (fst (fst st)) /\ rows_ok (bw k B) (snd (fst st))
                  /\ mat (on (2 * Z.of_nat k * B)) (snd st)).
  - apply same_for.
    + cbn [fst snd]. split; [apply (Z0 (fun i => Z.of_nat i * B)%Z); intros; nia|].
      split; [apply (Z0 (fun i => Z.of_nat (k - i) * B)%Z); intros; nia|]. apply zero_rows_on. nia.
    + intros i st _ H. apply one_same; auto.
  - intros [[a b] o] (_ & _ & H). apply same_ret; auto.
Qed.

(** variables *)
Lemma variable_same A C D nv k2e out used metrics vconx : (0 <= A)%Z -> (0 <= C)%Z ->
  ((Z.of_nat D + 1) * A + C <= N)%Z ->
  mat (on A) k2e -> Forall (on C) metrics -> Forall (fun r => length r <= D) vconx ->
  same (mat (on ((Z.of_nat D + 1) * A + C))) (variable_update_f rnd nv k2e out used metrics vconx)
       (variable_update nv k2e out used metrics vconx).
Proof.
  intros HA HC L Hk Hm Hv. unfold variable_update_f, variable_update.
  apply same_bind with (P := Forall (on C)).
  { apply same_fold; [apply Forall_repeat, on_0, HC|]. intros n um _ Hum.
    apply same_bind with (P := on C); [apply same_get; exact Hm|]. intros m Hmm. apply same_set; auto. }
  intros um Hum.
  apply same_bind with (P := Forall (on (Z.of_nat D * A + C))).
  { (* the sum of variable [i] is only written in round [i] *)
    eapply same_weaken; [|apply (same_for_count (fun i s => Forall (on (Z.of_nat D * A + C)) s /\
        forall j x, i <= j -> nth_error s j = Some x -> x = n0))].
    - intros s [H _]. exact H.
    - split; [apply Forall_repeat, on_0; nia|]. intros j x _ E. apply nth_error_In, repeat_spec in E. exact E.
    - intros i s Hi [H1 H2].
      apply same_bind with (P := fun r => length r <= D); [apply same_get; exact Hv|]. intros conns Hl.
      eapply same_bind with (P := fun s => Forall (on (Z.of_nat D * A + C)) s /\
        (forall x, nth_error s i = Some x -> on (Z.of_nat D * A) x) /\
        forall j x, i + 1 <= j -> nth_error s j = Some x -> x = n0).
      + eapply same_weaken; [|apply (same_for_count (fun t s => Forall (on (Z.of_nat D * A + C)) s /\
          (forall x, nth_error s i = Some x -> on (Z.of_nat t * A) x) /\
          forall j x, i + 1 <= j -> nth_error s j = Some x -> x = n0))].
        * intros s' (K1 & K2 & K3). split; [exact K1|]. split; [|exact K3]. intros x E.
          eapply on_mono; [|exact (K2 x E)]. nia.
        * split; [exact H1|]. split; [|intros j x Hj; apply H2; lia].
          intros x E. rewrite (H2 i x (le_n i) E). apply on_0. lia.
        * intros t s' Ht (K1 & K2 & K3).
          apply same_bind with (P := fun _ => True); [apply same_any|]. intros cl _.
          apply same_bind with (P := on A); [apply same_get2; exact Hk|]. intros m Hmm.
          unfold get. destruct (nth_error s' i) as [x|] eqn:E; [|apply same_none]. cbn [bind].
          destruct (add_exact _ _ x m (K2 x eq_refl) Hmm) as [E1 F1]; [nia|]. rewrite E1.
          unfold set. destruct (i <? length s'); [|apply same_none]. apply same_ret; [reflexivity|].
          split; [apply Forall_upd; auto; eapply on_mono; [|exact F1]; nia|]. split.
          -- intros y Ey. apply nth_upd in Ey. destruct Ey as [[_ ->]|[Ne _]]; [|congruence].
             eapply on_mono; [|exact F1]. nia.
          -- intros j y Hj Ey. apply nth_upd in Ey. destruct Ey as [[-> _]|[_ Ey]]; [lia|]. exact (K3 j y Hj Ey).
      + intros s' (K1 & K2 & K3). unfold get at 1. unfold get at 2.
        destruct (nth_error s' i) as [x|] eqn:E; [|apply same_none]. cbn [bind].
        apply same_bind with (P := on C); [apply same_get; exact Hum|]. intros w Hw.
        destruct (add_exact _ _ x w (K2 x eq_refl) Hw) as [E1 F1]; [nia|]. rewrite E1.
        unfold set. destruct (i <? length s'); [|apply same_none]. apply same_ret; [reflexivity|].
        split; [apply Forall_upd; auto|]. intros j y Hj Ey. apply nth_upd in Ey.
        destruct Ey as [[-> _]|[_ Ey]]; [lia|]. exact (K3 j y Hj Ey). }
  intros sums Hs.
  apply same_for; [apply zero_rows_on; nia|]. intros iv o _ Ho.
  apply same_bind with (P := fun _ => True); [apply same_any|]. intros v _.
  apply same_bind with (P := fun _ => True); [apply same_any|]. intros conns _.
  apply same_for; [exact Ho|]. clear o Ho. intros i o _ Ho.
  apply same_bind with (P := fun _ => True); [apply same_any|]. intros cl _.
  apply same_bind with (P := fun _ => True); [apply same_any|]. intros old _.
  apply same_bind with (P := on (Z.of_nat D * A + C)); [apply same_get; exact Hs|]. intros s Hss.
  apply same_bind with (P := on A); [apply same_get2; exact Hk|]. intros m Hmm.
  destruct (sub_exact _ _ s m Hss Hmm) as [E1 F1]; [nia|]. rewrite E1.
  destruct (nlt _ _); [|apply same_ret; auto]. apply same_set2; auto. eapply on_mono; [|exact F1]. nia.
Qed.
Lemma extrinsic_same A nv nc m out : (0 <= A)%Z -> (Z.of_nat nc * A <= N)%Z -> mat (on A) m ->
  Forall (fun x => x = n0) out ->
  ksat_update_extrinsic_f rnd nv nc m out = ksat_update_extrinsic nv nc m out.
Proof.
  intros HA L Hm Ho. unfold ksat_update_extrinsic_f, ksat_update_extrinsic.
  eapply (proj1 (same_for_count (fun i s => forall j x, i <= j -> nth_error s j = Some x -> x = n0) _ _ _ _ _ _)).
  Unshelve.
  - intros j x _ E. rewrite Forall_forall in Ho. apply Ho. exact (nth_error_In _ _ E).
  - intros i s Hi H.
    eapply same_weaken; [|apply (same_for_count (fun t s =>
          (forall x, nth_error s i = Some x -> on (Z.of_nat t * A) x) /\
          forall j x, i + 1 <= j -> nth_error s j = Some x -> x = n0))].
    + intros s' [_ K]. exact K.
    + split; [|intros j x Hj; apply H; lia]. intros x E. rewrite (H i x (le_n i) E). apply on_0. lia.
    + intros t s' Ht (K2 & K3). unfold get. destruct (nth_error s' i) as [x|] eqn:E; [|apply same_none]. cbn [bind].
      apply same_bind with (P := on A); [apply same_get2; exact Hm|]. intros w Hw.
      destruct (add_exact _ _ x w (K2 x eq_refl) Hw) as [E1 F1]; [nia|]. rewrite E1.
      unfold set. destruct (i <? length s'); [|apply same_none]. apply same_ret; [reflexivity|]. split.
      * intros y Ey. apply nth_upd in Ey. destruct Ey as [[_ ->]|[Ne _]]; [|congruence].
        eapply on_mono; [|exact F1]. nia.
      * intros j y Hj Ey. apply nth_upd in Ey. destruct Ey as [[-> _]|[_ Ey]]; [lia|]. exact (K3 j y Hj Ey).
Qed.

(** one iteration *)
Definition per_round (k D : nat) : Z := (2 * Z.of_nat k * (Z.of_nat D + 1))%Z.
Definition held_k (nv : nat) (A B : Z) (st : ksat_state) : Prop :=
  mat (on B) (kst_var st) /\ mat (on A) (kst_msg st) /\ Forall (fun r => length r = nv) (kst_msg st).
Lemma ksat_step_same flag alpha nv nc k B C D inp st iter : unfiltered flag alpha ->
  (0 <= B)%Z -> (0 <= C)%Z -> (per_round k D * B + C <= N)%Z ->
  Forall (on C) (ks_metrics inp) -> mat sign (ks_type inp) -> Forall (fun r => length r <= D) (ks_varconx inp) ->
  mat (on B) (kst_var st) -> mat (on (2 * Z.of_nat k * B)) (kst_msg st) -> Forall (fun r => length r = nv) (kst_msg st) ->
  same (held_k nv (2 * Z.of_nat k * B) (per_round k D * B + C))
    (ksat_step_f rnd flag alpha nv nc k inp st iter) (ksat_step flag alpha nv nc k inp st iter).
Proof.
  intros Hf HB HC L Hm Ht Hv V M S. unfold per_round in *. unfold ksat_step_f, ksat_step.
  assert (Z1 : (0 <= 2 * Z.of_nat k * B)%Z) by nia.
  assert (Z2 : (0 <= 2 * Z.of_nat k * B * Z.of_nat D)%Z) by nia.
  eapply same_bind; [apply update_same with (B := B); auto; nia|]. intros dummy Hd.
  eapply same_bind; [apply (filtering_on u) with (B := (2 * Z.of_nat k * B)%Z) (k := nv); assumption|].
  intros [msg old] (D1 & D2 & D3 & D4). cbn [fst snd] in *.
  eapply same_bind; [apply variable_same with (A := (2 * Z.of_nat k * B)%Z) (C := C) (D := D); auto; nia|].
  intros var Hvar. apply same_ret; [reflexivity|]. split; cbn [kst_var kst_msg]; [|auto].
  eapply mat_mono; [|exact Hvar]. nia.
Qed.

Section Run.
Variables (flag : bool) (alpha : num) (nv nc k D : nat) (inp : ksat_inputs) (C : Z).
Hypothesis Hf : unfiltered flag alpha.
Hypothesis HC : (0 <= C)%Z.
Hypothesis Hm : Forall (on C) (ks_metrics inp).
Hypothesis Ht : mat sign (ks_type inp).
Hypothesis Hv : Forall (fun r => length r <= D) (ks_varconx inp).
Hypothesis H0 : mat (on C) (ks_var2clause inp).

Lemma init_held B : (C <= B)%Z -> held_k nv (2 * Z.of_nat k * B) B (ksat_init nv nc (ks_var2clause inp)).
Proof.
  intros HB. split; [|split]; cbn [kst_var kst_msg ksat_init].
  - eapply mat_mono; [exact HB | exact H0].
  - apply mat_zeros. nia.
  - apply Forall_repeat, repeat_length.
Qed.
Lemma held_k_mono A A' B B' st : (A <= A')%Z -> (B <= B')%Z -> held_k nv A B st -> held_k nv A' B' st.
Proof.
  intros L1 L2 (V & M & S). split; [|split]; [eapply mat_mono; [exact L2|exact V] | eapply mat_mono; [exact L1|exact M] | exact S].
Qed.
Lemma finish_same A st : (0 <= A)%Z -> (Z.of_nat nc * A <= N)%Z -> mat (on A) (kst_msg st) ->
  ksat_update_extrinsic_f rnd nv nc (kst_msg st) (repeat n0 nv) = ksat_update_extrinsic nv nc (kst_msg st) (repeat n0 nv).
Proof. intros HA L M. apply extrinsic_same with (A := A); auto. apply Forall_repeat. reflexivity. Qed.

(** the exact run stays within [B] *)
Lemma ksat_run_same iters B : (C <= B)%Z -> (0 < u)%Qc ->
  (per_round k D * B + C <= N)%Z -> (Z.of_nat nc * (2 * Z.of_nat k * B) <= N)%Z ->
  (forall t st, t <= iters ->
     for_up 0 t (ksat_init nv nc (ks_var2clause inp)) (ksat_step flag alpha nv nc k inp) = Some st ->
     mat (small u B) (kst_var st)) ->
  ksat_iterate_f rnd flag alpha nv nc k iters inp = ksat_iterate flag alpha nv nc k iters inp.
Proof.
  intros HB Hu L1 L2 Hw. unfold ksat_iterate_f, ksat_iterate.
  destruct (steps_same (ksat_step_f rnd flag alpha nv nc k inp) (ksat_step flag alpha nv nc k inp)
    (held_k nv (2 * Z.of_nat k * B) B) (held_k nv (2 * Z.of_nat k * B) (per_round k D * B + C))
    (ksat_init nv nc (ks_var2clause inp)) iters) as [E F].
  - apply init_held. exact HB.
  - intros t st Htt (V & M & S). apply ksat_step_same; auto; lia.
  - intros t st Htt R (V & M & S). split; [|auto]. eapply mat_on_small; [exact Hu | exact V | exact (Hw t st Htt R)].
  - rewrite E. clear E. destruct (for_up 0 iters _ _) as [st|]; [|reflexivity]. cbn [bind].
    destruct (F st eq_refl) as (_ & M & _). rewrite (finish_same (2 * Z.of_nat k * B) st); auto.
    assert (0 <= B)%Z by lia. nia.
Qed.
(** bound without looking at the run *)
Lemma ksat_short_same iters : let G := (per_round k D + 1)%Z in
  (G ^ Z.of_nat iters * C <= N)%Z -> (0 < iters -> (Z.of_nat nc * (2 * Z.of_nat k * (G ^ Z.of_nat (iters - 1) * C)) <= N)%Z) ->
  ksat_iterate_f rnd flag alpha nv nc k iters inp = ksat_iterate flag alpha nv nc k iters inp.
Proof.
  intros G L1 L2. unfold ksat_iterate_f, ksat_iterate.
  assert (G1 : (1 <= G)%Z) by (unfold G, per_round; nia).
  assert (GP : forall i, (1 <= G ^ Z.of_nat i)%Z).
  { intros i. pose proof (Z.pow_pos_nonneg G (Z.of_nat i)). lia. }
  assert (GS : forall i, (G ^ Z.of_nat (i + 1) = G * G ^ Z.of_nat i)%Z).
  { intros i. replace (Z.of_nat (i + 1)) with (Z.succ (Z.of_nat i)) by lia. apply Z.pow_succ_r. lia. }
  assert (GM : forall i j, i <= j -> (G ^ Z.of_nat i <= G ^ Z.of_nat j)%Z).
  { intros i j H. apply Z.pow_le_mono_r; lia. }
  destruct (same_for_count (fun i => held_k nv (2 * Z.of_nat k * (G ^ Z.of_nat (i - 1) * C)) (G ^ Z.of_nat i * C))
    iters (ksat_step_f rnd flag alpha nv nc k inp) (ksat_step flag alpha nv nc k inp)
    (ksat_init nv nc (ks_var2clause inp))) as [E F].
  - cbn [Nat.sub]. change (Z.of_nat 0) with 0%Z. rewrite Z.pow_0_r, Z.mul_1_l. apply init_held. lia.
  - intros i st Hi (V & M & S). replace (i + 1 - 1) with i by lia.
    assert (X : (per_round k D * (G ^ Z.of_nat i * C) + C <= G ^ Z.of_nat (i + 1) * C)%Z).
    { rewrite GS. specialize (GP i). unfold G at 2. nia. }
    specialize (GM (i + 1) iters ltac:(lia)). specialize (GP i).
    eapply same_weaken; [|apply ksat_step_same with (B := (G ^ Z.of_nat i * C)%Z) (C := C) (D := D); auto].
    + intros st'. apply held_k_mono; lia.
    + nia.
    + nia.
    + eapply mat_mono; [|exact M].
      assert (G ^ Z.of_nat (i - 1) <= G ^ Z.of_nat i)%Z by (apply Z.pow_le_mono_r; lia). nia.
  - rewrite E. clear E. destruct (for_up 0 iters _ _) as [st|] eqn:R; [|reflexivity]. cbn [bind].
    destruct (F st eq_refl) as (_ & M & _). destruct iters as [|iters'].
    + injection R as <-. cbn [kst_msg ksat_init].
      rewrite (extrinsic_same 0); auto; [lia | lia | apply mat_zeros; lia | apply Forall_repeat; reflexivity].
    + rewrite (finish_same _ st) with (3 := M); [reflexivity | | apply L2; lia].
      specialize (GP (S iters' - 1)). nia.
Qed.
End Run.
End Ksat.
