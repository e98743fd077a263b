(** * Property C12: filtering. *)
From Verif Require Import Num NumFacts Arr Spec M_Filter P_Filter.
Local Open Scope nat_scope.

(** C12, filtering on with alpha <> 0.  After any non-empty history of raw matrices, whatever the
    remembered and output arrays held before iteration 0, every filtered entry is the exponential
    blend of the raw history of that entry, latest value with weight (1-alpha). *)
Theorem C12_filtering_blend :
  forall (a : Qc) (n N k : nat) (raws : list (list (list Qc))) (old : list (list Qc))
         (out : list (list num)),
    a <> 0%Qc -> Forall (shape n k) raws -> raws <> [] -> shape N k old -> n <= N -> shape n k out ->
    exists Q old',
      filter_run true (Fin a) n 0 (map inj raws) (inj old) out = Some (inj Q, inj old') /\
      shape n k Q /\
      forall i j, i < n -> j < k ->
        qat Q i j = qsum (map (fun t => (1 - a) * a ^ (length raws - 1 - t) * qat (nth t raws []) i j)%Qc
                              (seq 0 (length raws))).
Proof.
  intros a n N k raws old out Ha HR Hne HO HN HS.
  assert (On : on true a = true) by (apply on_iff; auto).
  destruct (filter_run_ok true a n N k raws old out HR Hne HO HS (fun _ => HN))
    as (Q & O' & E & SQ & _ & H & _).
  exists Q, O'. split; [exact E|]. split; auto. intros i j Hi Hj. rewrite H, On by auto.
  unfold expo, hist. rewrite map_length. f_equal. apply map_ext_in. intros t Ht. apply in_seq in Ht.
  f_equal. rewrite (nth_indep _ 0%Qc (qat [] i j)) by (rewrite map_length; lia).
  rewrite (map_nth (fun M => qat M i j)). reflexivity.
Qed.

(** C12, filtering off or alpha = 0: the output is the last raw matrix. *)
Theorem C12_no_filtering :
  forall (flag : bool) (a : Qc) (n N k : nat) (raws : list (list (list Qc))) (raw : list (list Qc))
         (old : list (list Qc)) (out : list (list num)),
    (flag = false \/ a = 0%Qc) -> Forall (shape n k) raws -> shape n k raw -> shape N k old ->
    shape n k out ->
    exists Q old',
      filter_run flag (Fin a) n 0 (map inj (raws ++ [raw])) (inj old) out = Some (inj Q, inj old') /\
      shape n k Q /\
      forall i j, i < n -> j < k -> qat Q i j = qat raw i j.
Proof.
  intros flag a n N k raws raw old out Hoff HR Hraw HO HS.
  assert (On : on flag a = false).
  { destruct (on flag a) eqn:E; auto. apply on_iff in E as [E1 E2]. destruct Hoff; congruence. }
  destruct (filter_run_ok flag a n N k (raws ++ [raw]) old out) as (Q & O' & E & SQ & _ & H & _); auto.
  - apply Forall_app; auto.
  - destruct raws; discriminate.
  - rewrite On; discriminate.
  - exists Q, O'. split; [exact E|]. split; auto. intros i j Hi Hj. rewrite H, On by auto.
    unfold hist. rewrite map_app. cbn [map]. apply last_last.
Qed.

(** C12, range: for 0 <= alpha <= 1 (filtering on or off) a filtered entry never leaves an
    interval that contains 0 and all raw values of that entry. *)
Theorem C12_range :
  forall (flag : bool) (a : Qc) (n N k : nat) (raws : list (list (list Qc))) (old : list (list Qc))
         (out : list (list num)) (lo hi : Qc) (i j : nat),
    (0 <= a)%Qc -> (a <= 1)%Qc -> Forall (shape n k) raws -> raws <> [] -> shape N k old -> n <= N ->
    shape n k out -> i < n -> j < k -> (lo <= 0)%Qc -> (0 <= hi)%Qc ->
    Forall (fun M => lo <= qat M i j /\ qat M i j <= hi)%Qc raws ->
    exists r old' q,
      filter_run flag (Fin a) n 0 (map inj raws) (inj old) out = Some (r, old') /\
      get2 r i j = Some (Fin q) /\ (lo <= q)%Qc /\ (q <= hi)%Qc.
Proof.
  intros flag a n N k raws old out lo hi i j A0 A1 HR Hne HO HN HS Hi Hj L0 H0 HF.
  destruct (filter_run_ok flag a n N k raws old out HR Hne HO HS (fun _ => HN))
    as (Q & O' & E & SQ & _ & H & _).
  exists (inj Q), (inj O'), (qat Q i j). split; [exact E|]. split.
  { apply (P_Tsp_Constraints.get2_inj n k); auto. }
  rewrite H by auto. assert (HF' : Forall (fun x => lo <= x /\ x <= hi)%Qc (hist raws i j)).
  { unfold hist. apply Forall_map. auto. }
  destruct (on flag a).
  - apply expo_range; auto.
  - rewrite Forall_forall in HF'. apply HF'. destruct raws as [|M raws] using rev_ind; [congruence|].
    unfold hist. rewrite map_app. cbn [map]. rewrite last_last. apply in_or_app; right; left; auto.
Qed.

(** C12, damping: a raw message that stays at [c] is approached geometrically. *)
Theorem C12_constant :
  forall (a c : Qc) (n N k m : nat) (raws : list (list (list Qc))) (old : list (list Qc))
         (out : list (list num)) (i j : nat),
    a <> 0%Qc -> Forall (shape n k) raws -> length raws = S m -> shape N k old -> n <= N ->
    shape n k out -> i < n -> j < k -> Forall (fun M => qat M i j = c) raws ->
    exists r old',
      filter_run true (Fin a) n 0 (map inj raws) (inj old) out = Some (r, old') /\
      get2 r i j = Some (Fin (c * (1 - a ^ (S m)))%Qc).
Proof.
  intros a c n N k m raws old out i j Ha HR Hm HO HN HS Hi Hj HF.
  assert (On : on true a = true) by (apply on_iff; auto).
  assert (Hne : raws <> []) by (destruct raws; discriminate).
  destruct (filter_run_ok true a n N k raws old out HR Hne HO HS (fun _ => HN))
    as (Q & O' & E & SQ & _ & H & _).
  exists (inj Q), (inj O'). split; [exact E|]. rewrite (P_Tsp_Constraints.get2_inj n k) by auto.
  rewrite H, On by auto. assert (Eh : hist raws i j = repeat c (S m)).
  { rewrite <- Hm. clear -HF. induction raws as [|M raws IH]; cbn; auto. inversion HF; subst. f_equal; auto.  }
  rewrite Eh, expo_const. reflexivity.
Qed.

(** C12, one department at a time (the KC-MWM loop filters row [i] right after computing it):
    exactly row [i] of the output and of the remembered matrix change. *)
Theorem C12_one_row :
  forall (flag : bool) (a : Qc) (iter n k i : nat) (raw old : list (list Qc)) (out : list (list num)),
    shape n k raw -> shape n k old -> shape n k out -> i < n ->
    exists out' old',
      filter_at flag (Fin a) iter i (inj raw) (inj old) out = Some (out', inj old') /\
      shape n k out' /\ shape n k old' /\
      (forall j, j < k -> get2 out' i j = Some (Fin
         (if flag && negb (Qc_eq_bool a 0) then
            (1 - a) * qat raw i j + (if iter =? 0 then 0 else a * qat old i j)
          else qat raw i j)%Qc)) /\
      (forall i' j, i' <> i -> get2 out' i' j = get2 out i' j /\ qat old' i' j = qat old i' j) /\
      (forall j, j < k -> flag = true -> a <> 0%Qc -> get2 out' i j = Some (Fin (qat old' i j))).
Proof.
  intros flag a iter n k i raw old out HR HO HS Hi.
  destruct (filter_at_ok flag a iter n n k i raw old out) as (q & Lq & E & Hq); auto.
  exists (upd out i (map Fin q)), (if on flag a then upd old i q else old).
  split; [exact E|]. split; [apply shape_updr; auto; rewrite map_length; auto|].
  split; [destruct (on flag a); auto; apply shape_updr; auto|].
  assert (L : i < length out) by (destruct HS; lia).
  assert (Eon : on flag a = flag && negb (Qc_eq_bool a 0)).
  { apply eq_true_iff_eq. rewrite on_iff, andb_true_iff, negb_true_iff. split; intros [H1 H2]; split; auto.
    - destruct (Qc_eq_bool a 0) eqn:X; auto. apply Qc_eq_bool_correct in X. contradiction.
    - intros ->. discriminate. }
  split; [|split].
  - intros j Hj. rewrite P_Kc_Trellis.get2_upd by auto. rewrite Nat.eqb_refl, (P_Equality.get_mapFin _ _ k) by auto.
    rewrite Hq by auto. unfold blend1. rewrite <- Eon. destruct (on flag a); auto.
    destruct (iter =? 0); do 2 f_equal; ring.
  - intros i' j Hn. rewrite P_Kc_Trellis.get2_upd by auto. destruct (Nat.eqb_spec i i'); [congruence|].
    split; auto. destruct (on flag a); auto. rewrite (qat_upd n k) by auto.
    destruct (Nat.eqb_spec i i'); [congruence|auto].
  - intros j Hj -> Ha. assert (On : on true a = true) by (apply on_iff; auto). rewrite On.
    rewrite P_Kc_Trellis.get2_upd by auto. rewrite Nat.eqb_refl, (P_Equality.get_mapFin _ _ k) by auto.
    rewrite (qat_upd n k) by auto. rewrite Nat.eqb_refl. auto.
Qed.

(** alpha = 1/2, three iterations of 2x2 messages, remembered matrix with an extra row and rubbish *)
Example C12_example :
  let a := Q2Qc (1 # 2) in
  let raws := map (map (map zq)) [[[8; 0]; [4; -8]]; [[8; 16]; [4; 8]]; [[8; 0]; [0; -8]]]%Z in
  let old := map (map zq) [[7; 7]; [7; 7]; [7; 7]]%Z in
  a <> 0%Qc /\ Forall (shape 2 2) raws /\ shape 3 2 old /\
  option_map (fun r => map (map view) (fst r))
    (filter_run true (Fin a) 2 0 (map inj raws) (inj old) (repeat (repeat PInf 2) 2))
  = Some [[VFin 7; VFin 4]; [VFin (3 # 2); VFin (-3)]].
Proof. cbn zeta. split; [discriminate|]. split; [repeat constructor|]. split; [repeat constructor|]. vm_compute. reflexivity. Qed.

Print Assumptions C12_filtering_blend.
Print Assumptions C12_no_filtering.
Print Assumptions C12_range.
Print Assumptions C12_constant.
Print Assumptions C12_one_row.
