(** * Proofs about the command line programs. *)
From Coq Require Import Ascii String ZArith QArith Qcanon Permutation.
From Verif Require Import Num NumFacts Arr ArrFacts SpecCnf SpecCli M_Cnf P_Cnf M_Cli.
Local Open Scope nat_scope.

(** what a word says, by the kind of the option *)
Definition means (k : kind) (w : text) (x : pyv) : Prop :=
  match k, x with
  | KInt, PInt z => whole z w
  | KReal, PReal (Fin q) => real q w
  | KBool, PBool b => b = true <-> w <> []
  | KStr, PStr s => s = w
  | _, _ => False
  end.

(** ** Numbers *)

Lemma unsigned_digits w : w <> [] -> Forall is_decimal_digit w -> unsigned w = Some (Z.of_nat (digits_value w)).
Proof.
  intros N F. unfold unsigned. destruct w as [|c w]; [congruence|].
  change 0%Z with (Z.of_nat 0). rewrite (value_fold _ F 0). reflexivity.
Qed.
Lemma digit_not c x : is_decimal_digit c -> ~ is_decimal_digit x -> (c =? x)%char = false.
Proof. intros D N. destruct (Ascii.eqb_spec c x); [subst; contradiction|reflexivity]. Qed.
Lemma not_digit_dot : ~ is_decimal_digit "."%char.
Proof. unfold is_decimal_digit. cbn. lia. Qed.
Lemma not_digit_minus : ~ is_decimal_digit "-"%char.
Proof. unfold is_decimal_digit. cbn. lia. Qed.
Lemma not_digit_plus : ~ is_decimal_digit "+"%char.
Proof. unfold is_decimal_digit. cbn. lia. Qed.
Lemma not_digit_h : ~ is_decimal_digit "h"%char.
Proof. unfold is_decimal_digit. cbn. lia. Qed.

Lemma cut_none c s : ~ In c s -> cut c s = (s, None).
Proof.
  induction s as [|a s IH]; [reflexivity|]. intros N. cbn [cut].
  destruct (Ascii.eqb_spec a c); [subst; exfalso; apply N; left; reflexivity|].
  rewrite IH by (intros I; apply N; right; exact I). reflexivity.
Qed.
Lemma cut_some c s v : ~ In c s -> cut c (s ++ c :: v) = (s, Some v).
Proof.
  induction s as [|a s IH]; intros N; cbn [cut app].
  - rewrite Ascii.eqb_refl. reflexivity.
  - destruct (Ascii.eqb_spec a c); [subst; exfalso; apply N; left; reflexivity|].
    rewrite IH by (intros I; apply N; right; exact I). reflexivity.
Qed.
Lemma digits_no_dot w : Forall is_decimal_digit w -> ~ In "."%char w.
Proof. intros F I. rewrite Forall_forall in F. exact (not_digit_dot (F _ I)). Qed.

Lemma of_whole_pow n : of_whole (10 ^ Z.of_nat n) <> 0%Qc.
Proof.
  intros E. apply (f_equal this) in E. cbn [this of_whole Q2Qc] in E.
  assert (X : (inject_Z (10 ^ Z.of_nat n) == 0)%Q).
  { rewrite <- (Qred_correct (inject_Z _)), E. reflexivity. }
  unfold Qeq in X. cbn in X. rewrite Z.mul_1_r in X.
  assert (0 < 10 ^ Z.of_nat n)%Z by (apply Z.pow_pos_nonneg; lia). lia.
Qed.
Lemma dec_real q n b : (q * of_whole (10 ^ Z.of_nat b) = of_whole n)%Qc -> dec n b = Fin q.
Proof.
  intros E. unfold dec. f_equal. fold (of_whole n) (of_whole (10 ^ Z.of_nat b)). rewrite <- E. unfold Qcdiv.
  rewrite <- Qcmult_assoc, Qcmult_inv_r by apply of_whole_pow. apply Qcmult_1_r.
Qed.
Lemma unsigned_real_ok q w : unsigned_real q w -> unsigned_to_real w = Some (Fin q).
Proof.
  intros (a & b & Fa & Fb & S & E). unfold unsigned_to_real. destruct S as [(-> & N & ->)|(-> & N)].
  - rewrite (cut_none _ _ (digits_no_dot _ Fa)). rewrite app_nil_r in E.
    rewrite (unsigned_digits _ N Fa). cbn [bind]. f_equal. apply dec_real. exact E.
  - rewrite (cut_some _ _ _ (digits_no_dot _ Fa)). rewrite unsigned_digits.
    + cbn [bind]. f_equal. apply dec_real. exact E.
    + destruct a; [exact N|discriminate].
    + apply Forall_app. auto.
Qed.
Lemma unsigned_real_first q w : unsigned_real q w ->
  exists c r, w = c :: r /\ (c =? "-")%char = false /\ (c =? "+")%char = false /\ (c =? "h")%char = false.
Proof.
  intros (a & b & Fa & Fb & S & _). destruct a as [|c a].
  - destruct S as [(-> & N & ->)|(-> & N)]; [congruence|]. exists "."%char, b. auto.
  - apply Forall_cons_iff in Fa as (D & _). exists c.
    assert (X : (c =? "-")%char = false /\ (c =? "+")%char = false /\ (c =? "h")%char = false).
    { split; [|split]; apply digit_not; auto using not_digit_minus, not_digit_plus, not_digit_h. }
    destruct S as [(-> & N & ->)|(-> & N)]; eexists; split; try reflexivity; exact X.
Qed.
Lemma real_ok q w : real q w -> to_real w = Some (Fin q).
Proof.
  intros [U|(d & -> & U)].
  - pose proof (unsigned_real_ok q w U) as E. destruct (unsigned_real_first q w U) as (c & r & -> & A & B & _).
    cbn [to_real]. rewrite A, B. exact E.
  - cbn [to_real]. rewrite Ascii.eqb_refl, (unsigned_real_ok _ _ U). cbn [option_map nopp]. f_equal. f_equal. ring.
Qed.
Lemma whole_ok z w : whole z w -> to_int w = Some z.
Proof.
  intros [(n & -> & D)|(n & d & -> & -> & D)]; [apply decimal_int; exact D|apply decimal_neg; exact D].
Qed.
Lemma means_convert k w x : means k w x -> convert k w = Some x.
Proof.
  destruct k, x as [z|[q| | |]|b|s]; cbn [means convert]; try contradiction; intros M.
  - rewrite (whole_ok _ _ M). reflexivity.
  - rewrite (real_ok _ _ M). reflexivity.
  - f_equal. f_equal. destruct w; destruct b; try reflexivity.
    + destruct (proj1 M eq_refl eq_refl).
    + symmetry. apply M. discriminate.
  - subst. reflexivity.
Qed.

(** ** Names *)

Lemma teqb_refl a : teqb a a = true.
Proof. unfold teqb. destruct (list_eq_dec _ a a); congruence. Qed.
Lemma teqb_spec a b : teqb a b = true <-> a = b.
Proof. unfold teqb. destruct (list_eq_dec _ a b); split; congruence. Qed.
Lemma teqb_neq a b : a <> b -> teqb a b = false.
Proof. unfold teqb. destruct (list_eq_dec _ a b); congruence. Qed.
Lemma starts_prefix p s : starts p s = true <-> prefix p s.
Proof.
  revert s; induction p as [|a p IH]; intros s; cbn [starts].
  - split; [exists s; reflexivity|reflexivity].
  - destruct s as [|b s]; [split; [discriminate|intros (c & E); discriminate]|].
    rewrite andb_true_iff, Ascii.eqb_eq, IH. split.
    + intros (-> & (c & ->)). exists c; reflexivity.
    + intros (c & E). injection E as -> ->. split; [reflexivity|exists c; reflexivity].
Qed.
Lemma filter_one {A} (P : A -> bool) (l : list A) d : NoDup l -> In d l ->
  (forall x, In x l -> (P x = true <-> x = d)) -> filter P l = [d].
Proof.
  induction l as [|y l IH]; intros ND I H; [destruct I|]. apply NoDup_cons_iff in ND as (Ny & ND). cbn [filter].
  destruct (P y) eqn:E.
  - apply H in E; [|left; reflexivity]. subst. f_equal.
    assert (X : forall x, In x l -> P x = false).
    { intros x Ix. destruct (P x) eqn:Ex; [|reflexivity]. apply H in Ex; [subst; contradiction|right; exact Ix]. }
    clear -X. induction l as [|z l IH]; [reflexivity|]. cbn [filter]. rewrite (X z) by (left; reflexivity).
    apply IH. intros x Ix. apply X. right; exact Ix.
  - apply IH; auto.
    + destruct I as [->|I]; [|exact I]. assert (P d = true) by (apply H; [left; reflexivity|reflexivity]). congruence.
    + intros x Ix. apply H. right; exact Ix.
Qed.
Lemma name_inj decls d e : NoDup (map d_name decls) -> In d decls -> In e decls -> d_name d = d_name e -> d = e.
Proof.
  induction decls as [|x l IH]; intros ND Id Ie E; [destruct Id|]. cbn [map] in ND. apply NoDup_cons_iff in ND as (N & ND).
  destruct Id as [->|Id], Ie as [->|Ie]; auto.
  - exfalso. apply N. rewrite E. apply in_map. exact Ie.
  - exfalso. apply N. rewrite <- E. apply in_map. exact Id.
Qed.
Lemma find_name decls d : NoDup (map d_name decls) -> In d decls -> find (fun e => teqb (d_name d) (d_name e)) decls = Some d.
Proof.
  intros ND I. destruct (find _ decls) as [e|] eqn:E.
  - apply find_some in E as (Ie & E). apply teqb_spec in E. f_equal. symmetry. eapply name_inj; eauto.
  - exfalso. pose proof (find_none _ _ E d I) as X. cbn in X. rewrite teqb_refl in X. discriminate.
Qed.
Lemma resolve_ok decls s d : NoDup (map d_name decls) -> In d decls -> abbreviates (map d_name decls) s (d_name d) ->
  resolve decls s = [d].
Proof.
  intros ND I (_ & [->|(P & U)]); unfold resolve.
  - rewrite find_name by auto. reflexivity.
  - destruct (find _ decls) as [e|] eqn:E.
    + apply find_some in E as (Ie & E). apply teqb_spec in E. f_equal. apply (name_inj decls); auto.
      apply U; [apply in_map; exact Ie|]. exists []. rewrite app_nil_r. auto.
    + apply filter_one; auto.
      * eapply NoDup_map_inv; exact ND.
      * intros x Ix. rewrite starts_prefix. split.
        -- intros Px. apply (name_inj decls); auto. apply U; [apply in_map; exact Ix|exact Px].
        -- intros ->. exact P.
Qed.
Lemma abbreviation_no_eq names s n : Forall (fun m => ~ In "="%char m) names -> abbreviates names s n -> ~ In "="%char s.
Proof.
  intros F (I & [->|((c & ->) & _)]).
  - rewrite Forall_forall in F. exact (F _ I).
  - rewrite Forall_forall in F. intros J. apply (F _ I). apply in_or_app. left; exact J.
Qed.
Lemma forallb_digits w : Forall is_decimal_digit w -> forallb is_digit w = true.
Proof. intros F. apply forallb_forall. intros x I. rewrite Forall_forall in F. apply digit_is_digit. exact (F _ I). Qed.
Lemma ordinary_argument decls v : ordinary v -> is_argument decls v = true.
Proof.
  intros [N|(q & [U|(d & -> & U)])].
  - destruct v as [|c r]; [reflexivity|]. cbn [is_argument]. cbn [hd_error] in N.
    destruct (Ascii.eqb_spec c "-"); [subst; congruence|reflexivity].
  - destruct (unsigned_real_first q v U) as (c & r & -> & A & _). cbn [is_argument]. rewrite A. reflexivity.
  - destruct (unsigned_real_first _ d U) as (c & r & -> & A & _ & H). cbn [is_argument].
    rewrite Ascii.eqb_refl, A, H. cbn [negb].
    replace (negative_number ("-"%char :: c :: r)) with true; [reflexivity|]. symmetry.
    destruct U as (a & b & Fa & Fb & S & _). cbn [negative_number]. rewrite Ascii.eqb_refl. cbn [andb].
    destruct S as [(-> & N & ->)|(-> & N)].
    + rewrite (cut_none _ _ (digits_no_dot _ Fa)). destruct a; [congruence|]. apply forallb_digits. exact Fa.
    + rewrite (cut_some _ _ _ (digits_no_dot _ Fa)). rewrite (forallb_digits _ Fa).
      destruct b; [congruence|]. cbn [andb]. apply forallb_digits. exact Fb.
Qed.

(** ** Command lines *)

(** the settings of [gs] are about options of the program and can be read *)
Definition readable (decls : list decl) (g : text * text) : Prop :=
  exists d x, In d decls /\ d_name d = fst g /\ means (d_kind d) (snd g) x.
Lemma parse_setting decls g p rest ns : NoDup (map d_name decls) -> Forall (fun m => ~ In "="%char m) (map d_name decls) ->
  setting (map d_name decls) (fst g) (snd g) p -> forall d x, In d decls -> d_name d = fst g -> means (d_kind d) (snd g) x ->
  parse decls (p ++ rest) ns = parse decls rest ((fst g, x) :: ns).
Proof.
  intros ND NE S d x I E M. rewrite <- E in *. destruct S as [s A O|s A].
  - cbn [app parse dash2]. rewrite Ascii.eqb_refl. cbn [andb].
    rewrite (cut_none _ _ (abbreviation_no_eq _ _ _ NE A)), (resolve_ok _ _ _ ND I A), (ordinary_argument _ _ O).
    rewrite (means_convert _ _ _ M). reflexivity.
  - cbn [app parse dash2]. rewrite Ascii.eqb_refl. cbn [andb].
    rewrite (cut_some _ _ _ (abbreviation_no_eq _ _ _ NE A)), (resolve_ok _ _ _ ND I A).
    rewrite (means_convert _ _ _ M). reflexivity.
Qed.
Lemma last_acc n gs : forall r,
  fold_left (fun r (g : text * text) => if list_eq_dec ascii_dec (fst g) n then Some (snd g) else r) gs r =
  match last_setting n gs with Some v => Some v | None => r end.
Proof.
  unfold last_setting. induction gs as [|g gs IH]; intros r; [reflexivity|]. cbn [fold_left].
  rewrite IH. rewrite (IH (if list_eq_dec ascii_dec (fst g) n then Some (snd g) else None)).
  destruct (fold_left _ gs None); [reflexivity|]. destruct (list_eq_dec ascii_dec (fst g) n); reflexivity.
Qed.
Lemma parse_ok decls : NoDup (map d_name decls) -> Forall (fun m => ~ In "="%char m) (map d_name decls) ->
  forall gs argv ns, command_line (map d_name decls) gs argv -> Forall (readable decls) gs ->
  exists ns', parse decls argv ns = Some ns' /\
    forall d, In d decls -> match last_setting (d_name d) gs with
      | Some v => exists x, means (d_kind d) v x /\ lookup (d_name d) ns' = Some x
      | None => lookup (d_name d) ns' = lookup (d_name d) ns
      end.
Proof.
  intros ND NE gs argv ns (parts & -> & F). revert parts ns F.
  induction gs as [|g gs IH]; intros parts ns F R; inversion F as [|g' p gs' ps S F']; subst; cbn [concat].
  - exists ns. split; [reflexivity|]. intros d I. reflexivity.
  - apply Forall_cons_iff in R as ((d & x & I & E & M) & R). rewrite (parse_setting decls g p _ ns ND NE S d x I E M).
    destruct (IH ps ((fst g, x) :: ns) F' R) as (ns' & P & L). exists ns'. split; [exact P|].
    intros d' I'. specialize (L d' I'). unfold last_setting. cbn [fold_left]. rewrite last_acc.
    destruct (last_setting (d_name d') gs) as [v|] eqn:Lg; [exact L|].
    destruct (list_eq_dec ascii_dec (fst g) (d_name d')) as [Q|Q].
    + assert (d = d') by (apply (name_inj decls); auto; congruence). subst d'. exists x. split; [exact M|].
      rewrite L. cbn [lookup]. rewrite Q, teqb_refl. reflexivity.
    + rewrite L. cbn [lookup]. rewrite teqb_neq by (intros ?; congruence). reflexivity.
Qed.
(** the value that the command line gives to an option *)
Definition says (gs : list (text * text)) (n : text) (k : kind) (v : pyv) (x : pyv) : Prop :=
  match last_setting n gs with Some w => means k w x | None => x = v end.
Lemma arg_ok decls gs argv : NoDup (map d_name decls) -> Forall (fun m => ~ In "="%char m) (map d_name decls) ->
  command_line (map d_name decls) gs argv -> Forall (readable decls) gs ->
  exists ns, parse decls argv [] = Some ns /\
    forall n k v, In (opt n k v) decls -> exists x, arg decls ns n = Some x /\ says gs (lit n) k v x.
Proof.
  intros ND NE C R. destruct (parse_ok decls ND NE gs argv [] C R) as (ns & P & L). exists ns. split; [exact P|].
  intros n k v I. specialize (L _ I). cbn [d_name opt d_kind] in L. unfold says, arg.
  destruct (last_setting (lit n) gs) as [w|].
  - destruct L as (x & M & Q). exists x. rewrite Q. auto.
  - rewrite L. cbn [lookup].
    pose proof (find_name decls (opt n k v) ND I) as Q. cbn [d_name opt] in Q. rewrite Q. cbn [option_map]. eauto.
Qed.
(** shape of values *)
Lemma says_int gs n v x : says gs n KInt (PInt v) x -> exists z, x = PInt z.
Proof. unfold says. destruct (last_setting n gs); [|intros ->; eauto]. destruct x as [z|[q| | |]|b|s]; cbn; try contradiction. eauto. Qed.
Lemma says_str gs n v x : says gs n KStr (PStr v) x -> exists z, x = PStr z.
Proof. unfold says. destruct (last_setting n gs); [|intros ->; eauto]. destruct x as [z|[q| | |]|b|s]; cbn; try contradiction. eauto. Qed.
Lemma says_bool gs n v x : says gs n KBool (PBool v) x -> exists z, x = PBool z.
Proof. unfold says. destruct (last_setting n gs); [|intros ->; eauto]. destruct x as [z|[q| | |]|b|s]; cbn; try contradiction. eauto. Qed.
Lemma whole_det z z' w : whole z w -> whole z' w -> z = z'.
Proof. intros A B. apply whole_ok in A, B. congruence. Qed.
Lemma says_int_det gs n v z z' : says gs n KInt (PInt v) (PInt z) -> says gs n KInt (PInt v) (PInt z') -> z = z'.
Proof. unfold says. destruct (last_setting n gs); [cbn; apply whole_det|congruence]. Qed.
Lemma says_real gs n m k x : says gs n KReal (PReal (dec m k)) x -> exists q, x = PReal (Fin q).
Proof.
  unfold says. destruct (last_setting n gs); [|intros ->; unfold dec; eauto].
  destruct x as [z|[q| | |]|b|s]; cbn; try contradiction. eauto.
Qed.

(** ** Rounding *)

Lemma tenths_ok n d : (0 <= n)%Z -> (0 < d)%Z ->
  (0 <= tenths n d)%Z /\ (2 * (tenths n d * d) - d <= 20 * n <= 2 * (tenths n d * d) + d)%Z.
Proof.
  intros Hn Hd. unfold tenths. pose proof (Z.div_mod (10 * n) d ltac:(lia)) as E.
  pose proof (Z.mod_pos_bound (10 * n) d Hd) as B. pose proof (Z.div_pos (10 * n) d ltac:(lia) Hd) as P.
  set (f := (10 * n / d)%Z) in *. set (r := (10 * n mod d)%Z) in *.
  destruct (Z.ltb_spec (2 * r) d); [nia|]. destruct (Z.ltb_spec d (2 * r)); [nia|]. destruct (Z.even f); nia.
Qed.
Lemma tenths_even n d : (0 <= n)%Z -> (0 < d)%Z ->
  (20 * n = 2 * (tenths n d * d) - d \/ 20 * n = 2 * (tenths n d * d) + d)%Z -> Z.even (tenths n d) = true.
Proof.
  intros Hn Hd. unfold tenths. pose proof (Z.div_mod (10 * n) d ltac:(lia)) as E.
  pose proof (Z.mod_pos_bound (10 * n) d Hd) as B.
  set (f := (10 * n / d)%Z) in *. set (r := (10 * n mod d)%Z) in *.
  destruct (Z.ltb_spec (2 * r) d); [intros [H0|H0]; exfalso; nia|]. destruct (Z.ltb_spec d (2 * r)); [intros [H1|H1]; exfalso; nia|]. intros _.
  destruct (Z.even f) eqn:Ev; [exact Ev|]. rewrite Z.even_add, Ev. reflexivity.
Qed.
Lemma even_digit m : Z.even (Z.of_nat m) = true -> In (digit (m mod 10)) ["0"; "2"; "4"; "6"; "8"]%char.
Proof.
  intros H. apply Z.even_spec in H as (k & H).
  assert (B : m mod 10 < 10) by (apply Nat.mod_upper_bound; lia). pose proof (Nat.div_mod m 10 ltac:(lia)) as E.
  remember (m mod 10) as x. destruct x as [|[|[|[|[|[|[|[|[|[|x]]]]]]]]]]; try lia; vm_compute; tauto.
Qed.
Lemma tie_Q t n p : (n # p == (t # 10) - (1#20))%Q -> (20 * n = 2 * (t * Zpos p) - Zpos p)%Z.
Proof. unfold Qeq, Qminus, Qplus, Qopp. cbn [Qnum Qden]. change (Z.pos (10 * 20)) with 200%Z. lia. Qed.
Lemma tie_Q' t n p : (n # p == (t # 10) + (1#20))%Q -> (20 * n = 2 * (t * Zpos p) + Zpos p)%Z.
Proof. unfold Qeq, Qminus, Qplus, Qopp. cbn [Qnum Qden]. change (Z.pos (10 * 20)) with 200%Z. lia. Qed.
Lemma tie_Qc q r t n p : (this q == n # p)%Q -> (this r == t # 10)%Q -> (q = r - Q2Qc (1#20) \/ q = r + Q2Qc (1#20))%Qc ->
  (20 * n = 2 * (t * Zpos p) - Zpos p \/ 20 * n = 2 * (t * Zpos p) + Zpos p)%Z.
Proof.
  intros Q1 Q2 [H|H]; [left; apply tie_Q|right; apply tie_Q']; rewrite <- Q1, H, <- Q2; unfold Qcminus, Qcplus, Qcopp, Q2Qc; cbn [this]; rewrite ?Qred_correct; reflexivity.
Qed.
Lemma digits_value_app a b : digits_value (a ++ b) = fold_left (fun x c => 10 * x + (code c - 48)) b (digits_value a).
Proof. unfold digits_value. apply fold_left_app. Qed.
Lemma tenth_text m : unsigned_real (of_whole (Z.of_nat m) / of_whole 10)%Qc (str_nat (m / 10) ++ lit "." ++ [digit (m mod 10)]).
Proof.
  destruct (str_nat_ok (m / 10)) as (N & F & V & _).
  assert (B : m mod 10 < 10) by (apply Nat.mod_upper_bound; lia).
  exists (str_nat (m / 10)), [digit (m mod 10)]. split; [exact F|]. split.
  { constructor; [|constructor]. unfold is_decimal_digit. rewrite code_digit by exact B. lia. }
  split; [right; split; [reflexivity|discriminate]|].
  rewrite digits_value_app. unfold digits_value at 1. rewrite V. cbn [fold_left]. rewrite code_digit by exact B.
  replace (10 * (m / 10) + (48 + m mod 10 - 48)) with m by (pose proof (Nat.div_mod m 10 ltac:(lia)); lia).
  change (10 ^ Z.of_nat (length [digit (m mod 10)]))%Z with 10%Z. unfold Qcdiv.
  rewrite <- Qcmult_assoc, (Qcmult_comm (/ _)), Qcmult_inv_r by discriminate. apply Qcmult_1_r.
Qed.
Lemma qc_le_Q (a b : Qc) : (this a <= this b)%Q -> (a <= b)%Qc.
Proof. intros H. exact H. Qed.
Lemma this_tenth m : (this (of_whole (Z.of_nat m) / of_whole 10)%Qc == Z.of_nat m # 10)%Q.
Proof.
  unfold Qcdiv, Qcmult, Qcinv, of_whole, Q2Qc, this. rewrite !Qred_correct. unfold Qeq, Qmult, Qinv, inject_Z. cbn. lia.
Qed.
Lemma tenth_bounds t n p : (2 * (t * Zpos p) - Zpos p <= 20 * n <= 2 * (t * Zpos p) + Zpos p)%Z ->
  ((t # 10) - (1#20) <= n # p)%Q /\ (n # p <= (t # 10) + (1#20))%Q.
Proof.
  intros B. unfold Qle, Qminus, Qplus, Qopp. cbn [Qnum Qden]. change (Z.pos (10 * 20)) with 200%Z. split; nia.
Qed.
Lemma fmt_ok q : one_digit q (fmt (PReal (Fin q))).
Proof.
  cbn [fmt]. set (n := Qnum (this q)). set (p := Qden (this q)).
  destruct (tenths_ok (Z.abs n) (Zpos p) ltac:(lia) ltac:(lia)) as (P & B).
  set (t := tenths (Z.abs n) (Zpos p)) in *. set (m := Z.to_nat t). assert (Em : Z.of_nat m = t) by (unfold m; lia).
  pose proof (tenth_text m) as R. set (w := str_nat (m / 10) ++ lit "." ++ [digit (m mod 10)]) in *.
  assert (Q1 : (this q == n # p)%Q) by (unfold n, p; destruct (this q); reflexivity).
  pose proof (this_tenth m) as Q2. rewrite Em in *. set (r := (of_whole t / of_whole 10)%Qc) in *.
  destruct (Z.ltb_spec n 0).
  - exists (str_nat (m / 10)), (digit (m mod 10)), (- r)%Qc.
    split; [right; reflexivity|]. split; [right; exists w; split; [reflexivity|]; rewrite Qcopp_involutive; exact R|].
    destruct (tenth_bounds (- t) n p) as (X & Y); [lia|].
    assert (Q3 : (this (- r)%Qc == - t # 10)%Q) by (unfold Qcopp, Q2Qc, this at 1; rewrite Qred_correct, Q2; reflexivity).
    split; [|split]; [apply qc_le_Q; unfold Qcminus, Qcplus, Q2Qc; cbn [this]; rewrite ?Qred_correct, Q3, Q1; first [exact X|exact Y]..|].
    intros T. apply (tie_Qc q (- r)%Qc (- t) n p Q1 Q3) in T. apply even_digit. rewrite Em. apply tenths_even; [lia|lia|]. fold t. lia.
  - exists (str_nat (m / 10)), (digit (m mod 10)), r.
    split; [left; reflexivity|]. split; [left; exact R|].
    destruct (tenth_bounds t n p) as (X & Y); [lia|].
    split; [|split]; [apply qc_le_Q; unfold Qcminus, Qcplus, Q2Qc; cbn [this]; rewrite ?Qred_correct, Q2, Q1; first [exact X|exact Y]..|].
    intros T. apply (tie_Qc q r t n p Q1 Q2) in T. apply even_digit. rewrite Em. apply tenths_even; [lia|lia|]. fold t. lia.
Qed.
