(** * Proofs about argument passing and scalar results. *)
From Coq Require Import String Znumtheory.
From Verif Require Import Num Arr M_Abi.
Local Open Scope nat_scope.

Section Classes.
  Context {A : Type}.
  Definition ints (l : list (ctype * A)) := filter (fun p => negb (is_sse (fst p))) l.
  Definition sses (l : list (ctype * A)) := filter (fun p => is_sse (fst p)) l.
End Classes.

Lemma place_spec : forall l ni nf, length (sses l) <= nf ->
  place ni nf l = (map snd (firstn ni (ints l)), map snd (sses l), map snd (skipn ni (ints l))).
Proof.
  induction l as [| [t c] l IH]; intros ni nf H; cbn [place].
  - destruct ni; reflexivity.
  - unfold ints, sses in *; cbn [filter fst] in *. destruct (is_sse t) eqn:Et; cbn [negb] in *.
    + cbn [length] in H. destruct nf as [| nf]; [lia |]. rewrite IH by lia. reflexivity.
    + destruct ni as [| ni]; rewrite IH by lia; reflexivity.
Qed.

(** Cells in parameter order, taken from the two sequences. *)
Fixpoint merge (ts : list ctype) (I F : list cell) : list cell :=
  match ts with
  | [] => []
  | t :: r => if is_sse t then match F with c :: F' => c :: merge r I F' | [] => [] end
              else match I with c :: I' => c :: merge r I' F | [] => [] end
  end.

Lemma fetch_spec : forall ts I F ni nf,
  length I = length (filter (fun t => negb (is_sse t)) ts) -> length F = length (filter is_sse ts) ->
  length F <= nf ->
  fetch ni nf ts (firstn ni I) F (skipn ni I) = Some (merge ts I F).
Proof.
  induction ts as [| t ts IH]; intros I F ni nf HI HF Hnf; cbn [fetch merge filter] in *; [reflexivity |].
  destruct (is_sse t) eqn:Et; cbn [negb length] in *.
  - destruct F as [| c F]; [discriminate |]. cbn [length] in *. destruct nf as [| nf]; [lia |].
    rewrite IH by lia. reflexivity.
  - destruct I as [| c I]; [discriminate |]. cbn [length] in *.
    destruct ni as [| ni]; cbn [firstn skipn].
    + specialize (IH I F 0 nf). cbn [firstn skipn] in IH. rewrite IH by lia. reflexivity.
    + rewrite IH by lia. reflexivity.
Qed.

Lemma Forall2_length : forall {A B} {R : A -> B -> Prop} {l m}, Forall2 R l m -> length l = length m.
Proof. intros A B R l m H. induction H; cbn; congruence. Qed.

Lemma Forall2_filter : forall {A B} (R : A -> B -> Prop) (f : A -> bool) (g : B -> bool) l m,
  Forall2 R l m -> (forall a b, R a b -> f a = g b) -> Forall2 R (filter f l) (filter g m).
Proof.
  intros A B R f g l m H Hf. induction H as [| a b l m Hab H IH]; cbn [filter]; [constructor |].
  rewrite <- (Hf a b Hab). destruct (f a); [constructor |]; assumption.
Qed.

Section Delivery.
  Variable q : string -> value.

  Definition carries (p : ctype * string) (c : cell) : Prop :=
    exists h, encode (fst p) (q (snd p)) h = Some c.

  Lemma merge_carries : forall ps I F,
    Forall2 carries (ints ps) I -> Forall2 carries (sses ps) F ->
    Forall2 carries ps (merge (map fst ps) I F).
  Proof.
    induction ps as [| [t n] ps IH]; intros I F HI HF; cbn [map merge fst]; [constructor |].
    unfold ints, sses in *; cbn [filter fst] in *. destruct (is_sse t); cbn [negb] in *.
    - inversion HF; subst. constructor; [assumption |]. apply IH; assumption.
    - inversion HI; subst. constructor; [assumption |]. apply IH; assumption.
  Qed.

  Lemma filter_fst : forall {A} (f : ctype -> bool) (ps : list (ctype * A)),
    length (filter f (map fst ps)) = length (filter (fun p => f (fst p)) ps).
  Proof.
    intros A f ps. induction ps as [| [t n] ps IH]; [reflexivity |]. cbn [map filter fst].
    destruct (f t); cbn [length]; rewrite IH; reflexivity.
  Qed.

  Definition carries' (p : ctype * string) (tc : ctype * cell) : Prop :=
    fst tc = fst p /\ carries p (snd tc).

  (** Same integer sequence, same floating-point sequence, enough vector registers. *)
  Lemma by_class_delivers : forall ni nf args params cells,
    ints args = ints params -> sses args = sses params -> length (sses args) <= nf ->
    Forall2 carries' args cells ->
    exists got, by_class ni nf cells (map fst params) = Some got /\ Forall2 carries params got.
  Proof.
    intros ni nf args params cells HI HF Hnf HC. unfold by_class.
    assert (FI : Forall2 carries' (ints args) (ints cells)).
    { unfold ints. apply Forall2_filter; [assumption |]. intros a b [E _]. rewrite E; reflexivity. }
    assert (FF : Forall2 carries' (sses args) (sses cells)).
    { unfold sses. apply Forall2_filter; [assumption |]. intros a b [E _]. rewrite E; reflexivity. }
    assert (GI : Forall2 carries (ints params) (map snd (ints cells))).
    { rewrite <- HI. clear -FI. induction FI as [| a b l m [_ H] _ IH]; cbn [map]; constructor; assumption. }
    assert (GF : Forall2 carries (sses params) (map snd (sses cells))).
    { rewrite <- HF. clear -FF. induction FF as [| a b l m [_ H] _ IH]; cbn [map]; constructor; assumption. }
    assert (LF := Forall2_length FF).
    rewrite place_spec by lia.
    exists (merge (map fst params) (map snd (ints cells)) (map snd (sses cells))). split.
    - rewrite <- firstn_map, <- skipn_map. apply fetch_spec.
      + rewrite <- (Forall2_length GI), filter_fst. reflexivity.
      + rewrite <- (Forall2_length GF), filter_fst. reflexivity.
      + rewrite map_length. lia.
    - apply merge_carries; assumption.
  Qed.
End Delivery.

(** Values that a C type can hold. *)
Definition fits (t : ctype) (v : value) : Prop :=
  match t, v with
  | TInt, VInt z => (- 2 ^ 31 <= z < 2 ^ 31)%Z
  | TBool, VBool _ => True
  | TDouble, VReal _ => True
  | TPtr e, VPtr e' _ => e = e'
  | _, _ => False
  end.

Lemma encode_fits : forall t v h, fits t v -> exists c, encode t v h = Some c.
Proof.
  intros t v h H. destruct t, v; cbn [fits encode] in *; try contradiction; eauto.
  subst. destruct e0; cbn; eauto.
Qed.

Lemma decode_int : forall z h, (- 2 ^ 31 <= z < 2 ^ 31)%Z ->
  decode TInt (Word (z mod 2 ^ 32 + 2 ^ 32 * h)) = Some (VInt z).
Proof.
  intros z h H. unfold decode. f_equal. f_equal. remember (2 ^ 32)%Z as B eqn:EB.
  rewrite (Z.mul_comm B), Z_mod_plus_full, Z.mod_mod by lia.
  destruct (Z.ltb_spec z 0).
  - assert (z mod B = z + B)%Z as ->.
    { rewrite <- (Z_mod_plus_full z 1 B), Z.mul_1_l. apply Z.mod_small. lia. }
    destruct (Z.ltb_spec (z + B) (2 ^ 31)); lia.
  - rewrite Z.mod_small by lia. destruct (Z.ltb_spec z (2 ^ 31)); lia.
Qed.

Lemma decode_bool : forall (b : bool) h,
  decode TBool (Word ((if b then 1 else 0) + 2 ^ 8 * h)) = Some (VBool b).
Proof.
  intros b h. unfold decode. f_equal. f_equal. remember (2 ^ 8)%Z as B eqn:EB.
  rewrite (Z.mul_comm B), Z_mod_plus_full, EB. destruct b; reflexivity.
Qed.

Lemma decode_encode : forall t v h c, fits t v -> encode t v h = Some c -> decode t c = Some v.
Proof.
  intros t v h c H E. destruct t, v; unfold encode in E; cbn [fits] in H; try contradiction.
  - assert (c = Word (z mod 2 ^ 32 + 2 ^ 32 * h)) as -> by congruence. apply decode_int, H.
  - assert (c = Word ((if b then 1 else 0) + 2 ^ 8 * h)) as -> by congruence. apply decode_bool.
  - injection E as <-. reflexivity.
  - subst. destruct e0; cbn in E; injection E as <-; reflexivity.
Qed.

(** The arguments of a call as (type, quantity). *)
Definition quantity (f : foreign) (e : pyexpr) : option string :=
  match e with
  | Int32 a | Flag a | Float a => Some a
  | Var x => assoc x (combine (f_unpack f) (f_returned f))
  end.

Lemma eval_quantities : forall f q es ns, mapM (quantity f) es = Some ns ->
  mapM (eval f q) es = Some (map q ns).
Proof.
  intros f q es. induction es as [| e es IH]; intros ns H; cbn [mapM] in *.
  - injection H as <-. reflexivity.
  - destruct (quantity f e) as [n |] eqn:En; cbn in H; [| discriminate].
    destruct (mapM (quantity f) es) as [ns' |] eqn:Es; cbn in H; [| discriminate].
    injection H as <-. cbn [map]. rewrite (IH ns' eq_refl).
    assert (eval f q e = Some (q n)) as ->; [| reflexivity].
    destruct e; cbn [quantity eval] in *; try (injection En as <-; reflexivity).
    rewrite En. reflexivity.
Qed.

Lemma zip_encode : forall q hi ts ns k, length ts = length ns ->
  Forall2 (fun t n => fits t (q n)) ts ns ->
  exists cells, zipM (fun t vh => c <- encode t (fst vh) (snd vh) ;; Some (t, c)) ts
                  (combine (map q ns) (map hi (seq k (length (map q ns))))) = Some cells
                /\ Forall2 (carries' q) (combine ts ns) cells.
Proof.
  intros q hi ts ns k _ H. revert k. induction H as [| t n ts ns Ht H IH]; intros k.
  - exists []. split; [reflexivity | constructor].
  - destruct (IH (S k)) as (cells & Ec & F). destruct (encode_fits t (q n) (hi k) Ht) as (c & E).
    exists ((t, c) :: cells). split.
    + cbn [map length seq combine zipM fst snd]. rewrite E. cbn. rewrite Ec. reflexivity.
    + cbn [combine]. constructor; [| assumption]. split; [reflexivity |]. exists (hi k). exact E.
Qed.

Lemma zip_decode : forall q ps got, Forall2 (carries q) ps got ->
  Forall (fun p => fits (fst p) (q (snd p))) ps ->
  zipM decode (map fst ps) got = Some (map (fun p => q (snd p)) ps).
Proof.
  intros q ps got H. induction H as [| p c ps got (h & E) H IH]; intros HF; [reflexivity |].
  inversion HF; subst. cbn [map zipM]. rewrite (decode_encode _ _ _ _ H2 E). cbn.
  rewrite IH by assumption. reflexivity.
Qed.

Lemma Forall_perm_classes : forall {A} (P : ctype * A -> Prop) l m,
  ints l = ints m -> sses l = sses m -> Forall P m -> Forall P l.
Proof.
  intros A P l m HI HS H. rewrite Forall_forall in *. intros x Hx. apply H.
  destruct (is_sse (fst x)) eqn:E.
  - assert (In x (sses m)) as G by (rewrite <- HS; apply filter_In; auto). apply filter_In in G. tauto.
  - assert (In x (ints m)) as G by (rewrite <- HI; apply filter_In; rewrite E; auto).
    apply filter_In in G. tauto.
Qed.

Lemma Forall2_combine_fits : forall q (ts : list ctype) (ns : list string), length ts = length ns ->
  Forall (fun p => fits (fst p) (q (snd p))) (combine ts ns) ->
  Forall2 (fun t n => fits t (q n)) ts ns.
Proof.
  intros q ts. induction ts as [| t ts IH]; intros [| n ns] L H; try discriminate; constructor.
  - inversion H; subst. assumption.
  - inversion H; subst. apply IH; [now injection L | assumption].
Qed.

(** A convention that turns cells of the arguments into cells of the parameters. *)
Definition conveys (conv : convention) (args params : list (ctype * string)) : Prop :=
  forall q cells, Forall2 (carries' q) args cells ->
  exists got, conv cells (map fst params) = Some got /\ Forall2 (carries q) params got.

Lemma conveys_delivers : forall conv f names ns q hi,
  mapM (quantity f) (f_call f) = Some ns ->
  length (f_argtypes f) = length ns -> length names = length (f_params f) ->
  let args := combine (f_argtypes f) ns in
  let params := combine (map snd (f_params f)) names in
  conveys conv args params ->
  ints args = ints params -> sses args = sses params ->
  Forall (fun p => fits (fst p) (q (snd p))) params ->
  foreign_call conv f q hi = Some (map q names).
Proof.
  intros conv f names ns q hi Hns La Lp args params Hc HI HS HF. unfold foreign_call.
  rewrite (eval_quantities _ _ _ _ Hns).
  assert (HA : Forall (fun p => fits (fst p) (q (snd p))) args)
    by (eapply Forall_perm_classes; eassumption).
  destruct (zip_encode q hi (f_argtypes f) ns 0 La) as (cells & Ec & F).
  { apply Forall2_combine_fits; assumption. }
  cbn [bind]. rewrite Ec.
  destruct (Hc q cells F) as (got & Eg & G).
  assert (Em : map fst params = map snd (f_params f)).
  { unfold params. generalize (f_params f) names Lp. clear. intros l.
    induction l as [| [a b] l IH]; intros [| n ns] H; try discriminate; [reflexivity |].
    cbn [map combine fst snd]. f_equal. apply IH. now injection H. }
  rewrite Em in Eg.
  assert (En : map (fun p => q (snd p)) params = map q names).
  { unfold params. generalize (f_params f) names Lp. clear. intros l.
    induction l as [| [a b] l IH]; intros [| n ns] H; try discriminate; [reflexivity |].
    cbn [map combine fst snd]. f_equal. apply IH. now injection H. }
  cbn [bind]. rewrite Eg. cbn [bind]. rewrite <- Em, (zip_decode _ _ _ G HF), En. reflexivity.
Qed.

Lemma by_class_conveys : forall ni nf args params,
  ints args = ints params -> sses args = sses params -> length (sses args) <= nf ->
  conveys (by_class ni nf) args params.
Proof. intros ni nf args params HI HS L q cells F. eapply by_class_delivers; eassumption. Qed.

Lemma by_position_conveys : forall args, conveys by_position args args.
Proof.
  intros args q cells F. exists (map snd cells). split; [reflexivity |].
  induction F as [| a b l m [_ H] _ IH]; cbn [map]; constructor; assumption.
Qed.

(** Cell number [i] holds what argument number [i] was encoded to. *)
Lemma zip_encode_nth : forall q (ts : list ctype) (ns : list string) ks (cells : list (ctype * cell)) i t n c,
  zipM (fun t vh => c <- encode t (fst vh) (snd vh) ;; Some (t, c)) ts (combine (map q ns) ks) = Some cells ->
  nth_error ts i = Some t -> nth_error ns i = Some n -> nth_error (map snd cells) i = Some c ->
  exists h, encode t (q n) h = Some c.
Proof.
  intros q ts. induction ts as [| t0 ts IH]; intros ns ks cells i t n c E Ht Hn Hc.
  - destruct i; discriminate.
  - destruct ns as [| n0 ns]; [destruct i; discriminate |].
    destruct ks as [| k ks]; [discriminate |]. cbn [map combine zipM fst snd] in E.
    destruct (encode t0 (q n0) k) as [c0 |] eqn:Ec; cbn [bind] in E; [| discriminate].
    match type of E with bind ?Z _ = _ => destruct Z as [r |] eqn:Er; cbn [bind] in E; [| discriminate] end.
    injection E as <-. destruct i as [| i]; cbn [nth_error map snd] in *.
    + injection Ht as <-. injection Hn as <-. injection Hc as <-. exists k. exact Ec.
    + eapply IH; eassumption.
Qed.

Lemma zipM_nth : forall {A B C} (g : A -> B -> option C) l m r i a, zipM g l m = Some r ->
  nth_error l i = Some a -> exists b c, nth_error m i = Some b /\ g a b = Some c.
Proof.
  intros A B C g l. induction l as [| x l IH]; intros [| y m] r i a E H; try discriminate.
  - destruct i; discriminate.
  - cbn [zipM] in E. destruct (g x y) as [c |] eqn:Eg; cbn [bind] in E; [| discriminate].
    destruct (zipM g l m) as [r' |] eqn:Er; cbn [bind] in E; [| discriminate].
    destruct i as [| i]; cbn [nth_error] in *.
    + injection H as <-. exists y, c. split; [reflexivity | exact Eg].
    + eapply IH; eassumption.
Qed.

(** ** Scalar results *)
Lemma le_value_app : forall a b, le_value (a ++ b) = (le_value a + 256 ^ Z.of_nat (length a) * le_value b)%Z.
Proof.
  induction a as [| x a IH]; intros b; cbn [app le_value length].
  - change (Z.of_nat 0) with 0%Z. lia.
  - rewrite IH, Nat2Z.inj_succ, Z.pow_succ_r by lia. lia.
Qed.

Lemma le_bytes_length : forall n z, length (le_bytes n z) = n.
Proof. induction n as [| n IH]; intros z; cbn; [| rewrite IH]; reflexivity. Qed.

Lemma le_value_bytes : forall n z, le_value (le_bytes n z) = (z mod 256 ^ Z.of_nat n)%Z.
Proof.
  induction n as [| n IH]; intros z; cbn [le_bytes le_value].
  - change (Z.of_nat 0) with 0%Z. rewrite Z.mod_1_r. reflexivity.
  - rewrite IH, Nat2Z.inj_succ, Z.pow_succ_r by lia.
    rewrite Z.rem_mul_r by lia. reflexivity.
Qed.

Lemma le_bytes_add : forall a b z,
  le_bytes (a + b) z = (le_bytes a z ++ le_bytes b (z / 256 ^ Z.of_nat a))%list.
Proof.
  induction a as [| a IH]; intros b z; cbn [plus le_bytes app].
  - change (Z.of_nat 0) with 0%Z. rewrite Z.pow_0_r, Z.div_1_r. reflexivity.
  - rewrite IH, Nat2Z.inj_succ, Z.pow_succ_r by lia. rewrite Z.div_div by lia. reflexivity.
Qed.

(** The low half is replaced, the high half stays. *)
Lemma scalar_little : forall old v,
  scalar_result Little old v
  = signed 64 (v mod 2 ^ 32 + 2 ^ 32 * ((old mod 2 ^ 64) / 2 ^ 32))%Z.
Proof.
  intros old v. unfold scalar_result, read_int64, store_int32, int64_cell, of_bytes, to_bytes.
  f_equal. rewrite (le_bytes_add 4 4). rewrite le_value_app, le_bytes_length, le_value_bytes.
  change (256 ^ Z.of_nat 4)%Z with (2 ^ 32)%Z. rewrite Z.mod_mod by lia.
  rewrite skipn_app, skipn_all2, le_bytes_length, Nat.sub_diag by (rewrite le_bytes_length; lia).
  cbn [skipn app]. rewrite le_value_bytes. change (256 ^ Z.of_nat 4)%Z with (2 ^ 32)%Z.
  rewrite (Z.mod_small (_ / _) (2 ^ 32)); [reflexivity |].
  pose proof (Z.mod_pos_bound old (2 ^ 64) ltac:(lia)). split.
  - apply Z.div_pos; lia.
  - apply Z.div_lt_upper_bound; lia.
Qed.

Lemma scalar_big : forall old v, scalar_result Big old v
  = signed 64 (old mod 2 ^ 32 + 2 ^ 32 * (v mod 2 ^ 32))%Z.
Proof.
  intros old v. unfold scalar_result, read_int64, store_int32, int64_cell, of_bytes, to_bytes.
  f_equal. rewrite rev_app_distr, rev_involutive.
  rewrite (le_bytes_add 4 4), rev_app_distr, skipn_app, skipn_all2
    by (rewrite rev_length, le_bytes_length; lia).
  rewrite rev_length, le_bytes_length, Nat.sub_diag. cbn [skipn app].
  rewrite rev_involutive, le_value_app, le_bytes_length, !le_value_bytes.
  change (256 ^ Z.of_nat 4)%Z with (2 ^ 32)%Z. rewrite Z.mod_mod by lia. f_equal.
  rewrite <- Zmod_div_mod; [reflexivity | lia | lia | exists (2 ^ 32)%Z; reflexivity].
Qed.
