(** * Proofs about what starts the unit tests. *)
From Coq Require Import Ascii String ZArith Qcanon.
From Verif Require Import Num NumFacts Arr ArrFacts SpecCnf SpecCli M_Cnf P_Cnf M_Cli P_Cli M_Unit_Driver.
Local Open Scope nat_scope.

(** ** Numbers in the environment *)

Lemma span_ok w rest : Forall is_decimal_digit w -> (forall c, hd_error rest = Some c -> ~ is_decimal_digit c) ->
  span_digits (w ++ rest) = (w, rest).
Proof.
  intros F N. induction F as [|c w D F IH]; cbn [app span_digits].
  - destruct rest as [|c r]; [reflexivity|]. cbn [span_digits]. specialize (N c eq_refl).
    destruct (is_digit c) eqn:E; [|reflexivity]. exfalso. apply N. unfold is_digit in E. unfold is_decimal_digit, code.
    apply andb_true_iff in E as (A & B). apply Nat.leb_le in A, B. lia.
  - rewrite digit_is_digit by exact D. rewrite IH. reflexivity.
Qed.
Lemma digit_no_space c : is_decimal_digit c -> is_space c = false.
Proof.
  unfold is_decimal_digit, code, is_space. intros (A & B).
  repeat match goal with |- context [?x <=? ?y] => destruct (Nat.leb_spec x y) end; cbn; lia || reflexivity.
Qed.
Lemma read_whole z w rest : whole z w -> (forall c, hd_error rest = Some c -> ~ is_decimal_digit c) ->
  read_int (w ++ rest) = Some (z, rest).
Proof.
  intros [(n & -> & D)|(n & d & -> & -> & D)] N; pose proof (decimal_unsigned n _ D) as U; destruct D as (NE & F & _).
  - destruct w as [|c w]; [congruence|]. assert (Dc : is_decimal_digit c) by (inversion F; auto).
    unfold read_int. cbn [app skip_blanks]. rewrite (digit_no_space _ Dc).
    rewrite (digit_not c "-"%char Dc not_digit_minus), (digit_not c "+"%char Dc not_digit_plus).
    change (c :: w ++ rest) with ((c :: w) ++ rest). rewrite (span_ok _ _ F N), U. reflexivity.
  - unfold read_int. cbn [app skip_blanks].
    change (is_space "-"%char) with false. cbv iota. rewrite Ascii.eqb_refl.
    rewrite (span_ok _ _ F N), U. reflexivity.
Qed.
Lemma atoi_whole z w : whole z w -> atoi w = z.
Proof. intros W. unfold atoi. rewrite <- (app_nil_r w), (read_whole z w [] W) by (intros c [=]). reflexivity. Qed.

(** ** Lists of numbers *)

Fixpoint join (ws : list text) : text :=
  match ws with
  | [] => []
  | [w] => w
  | w :: ws => w ++ ","%char :: join ws
  end.
(** [w] is the list [l] with commas between its numbers *)
Definition comma_list (l : list Z) (w : text) : Prop := exists ws, ws <> [] /\ Forall2 whole l ws /\ w = join ws.

Lemma whole_no_comma z w : whole z w -> ~ In ","%char w.
Proof.
  assert (X : forall v, Forall is_decimal_digit v -> ~ In ","%char v).
  { intros v F I. rewrite Forall_forall in F. specialize (F _ I). unfold is_decimal_digit in F. cbn in F. lia. }
  intros [(n & -> & _ & F & _)|(n & d & -> & -> & _ & F & _)]; [apply X; exact F|].
  intros [E|I]; [discriminate E|exact (X d F I)].
Qed.
Lemma split_none c w : ~ In c w -> split_at c w = [w].
Proof.
  induction w as [|a w IH]; intros N; [reflexivity|]. cbn [split_at].
  destruct (Ascii.eqb_spec a c); [subst; exfalso; apply N; left; reflexivity|]. rewrite IH; [reflexivity|intros I; apply N; right; exact I].
Qed.
Lemma split_some c w rest : ~ In c w -> split_at c (w ++ c :: rest) = w :: split_at c rest.
Proof.
  induction w as [|a w IH]; intros N; cbn [split_at app].
  - rewrite Ascii.eqb_refl. reflexivity.
  - destruct (Ascii.eqb_spec a c); [subst; exfalso; apply N; left; reflexivity|].
    rewrite IH; [reflexivity|intros I; apply N; right; exact I].
Qed.
Lemma py_list l w : comma_list l w -> mapM to_int (split_at ","%char w) = Some l.
Proof.
  intros (ws & NE & F & ->). revert NE. induction F as [|z w l ws W F IH]; intros NE; [congruence|].
  destruct ws as [|w' ws].
  - inversion F; subst. cbn [join]. rewrite (split_none _ _ (whole_no_comma _ _ W)). cbn [mapM].
    rewrite (whole_ok _ _ W). reflexivity.
  - change (join (w :: w' :: ws)) with (w ++ ","%char :: join (w' :: ws)).
    rewrite (split_some _ _ _ (whole_no_comma _ _ W)). cbn [mapM]. rewrite (whole_ok _ _ W). cbn [bind].
    rewrite IH by discriminate. reflexivity.
Qed.
Lemma whole_length z w : whole z w -> 1 <= length w.
Proof. intros [(n & -> & N & _)|(n & d & -> & -> & N & _)]; [destruct w; [congruence|cbn; lia]|cbn; lia]. Qed.
Lemma take_ok l ws : Forall2 whole l ws -> ws <> [] -> forall fuel, length (join ws) <= fuel -> take_int_from fuel (join ws) = l.
Proof.
  induction 1 as [|z w l ws W F IH]; intros NE fuel L; [congruence|].
  pose proof (whole_length _ _ W) as LW. destruct ws as [|w' ws].
  - inversion F; subst. cbn [join] in *. destruct fuel as [|fuel]; [lia|]. cbn [take_int_from].
    rewrite <- (app_nil_r w), (read_whole z w [] W) by (intros c [=]). destruct fuel; reflexivity.
  - change (join (w :: w' :: ws)) with (w ++ ","%char :: join (w' :: ws)) in *.
    rewrite app_length in L. cbn [length] in L. destruct fuel as [|fuel]; [lia|]. cbn [take_int_from].
    rewrite (read_whole z w _ W).
    2:{ intros c E. cbn [hd_error] in E. injection E as <-. unfold is_decimal_digit. cbn. lia. }
    unfold drop_char. cbn [skip_blanks]. change (is_space ","%char) with false. cbv iota. cbn [tl].
    rewrite IH; [reflexivity|discriminate|lia].
Qed.
Lemma cpp_list l w : comma_list l w -> take_int w = l.
Proof. intros (ws & NE & F & ->). unfold take_int. apply take_ok; auto. Qed.

(** ** Options *)

Lemma words_line names vars l : Forall (fun ov => In (lit (fst ov)) names) l ->
  command_line names (map (fun ov : string * string => (lit (fst ov), vars (snd ov))) l) (words_of vars l).
Proof.
  intros F. exists (map (fun ov : string * string => [lit "--" ++ lit (fst ov) ++ "="%char :: vars (snd ov)]) l). split.
  - unfold words_of. clear F. induction l as [|a l IH]; [reflexivity|]. cbn [map concat app]. rewrite <- IH. reflexivity.
  - induction F as [|a l I F IH]; cbn [map]; constructor; auto. cbn [fst snd].
    apply (setting_one names (lit (fst a)) (vars (snd a)) (lit (fst a))). split; [exact I|left; reflexivity].
Qed.
(** the word read as the kind of an option *)
Definition reads (k : kind) (w : text) : Prop := exists x, means k w x.
Lemma reads_bool w : reads KBool w.
Proof. exists (PBool match w with [] => false | _ => true end). cbn. destruct w; split; congruence. Qed.
Lemma reads_str w : reads KStr w.
Proof. exists (PStr w). reflexivity. Qed.
Lemma reads_int z w : whole z w -> reads KInt w.
Proof. intros W. exists (PInt z). exact W. Qed.
Lemma reads_real q w : real q w -> reads KReal w.
Proof. intros W. exists (PReal (Fin q)). exact W. Qed.
