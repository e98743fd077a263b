(** * Reading and writing DIMACS files *)
From Coq Require Import Ascii String ZArith.
From Verif Require Import Num NumFacts Arr ArrFacts M_Tsp_Run M_Tsp_Post M_Ksat_Py P_Ksat_Py SpecCnf M_Cnf.
Local Open Scope nat_scope.

(** ** Characters *)
Lemma code_digit d : d < 10 -> code (digit d) = 48 + d.
Proof. intros H. unfold code, digit. apply nat_ascii_embedding. lia. Qed.
Lemma code_inj a b : code a = code b -> a = b.
Proof. intros H. rewrite <- (ascii_nat_embedding a), <- (ascii_nat_embedding b). unfold code in H. congruence. Qed.
Lemma char_neq (a b : ascii) : code a <> code b -> (a =? b)%char = false.
Proof. intros H. apply Ascii.eqb_neq. intros ->. auto. Qed.
Lemma digit_is_digit c : is_decimal_digit c -> is_digit c = true.
Proof. intros (A & B). unfold is_digit. apply andb_true_iff. split; apply Nat.leb_le; auto. Qed.
Lemma dark_not_space c : 33 <= code c -> is_space c = false.
Proof.
  intros H. unfold is_space. fold (code c). apply orb_false_iff. split; apply andb_false_iff; right; apply Nat.leb_gt; lia.
Qed.
Lemma blank_space c : blank c -> is_space c = true.
Proof. intros [-> |[-> |[-> | ->]]]; reflexivity. Qed.

(** ** Numbers *)
Lemma value_fold w : Forall is_decimal_digit w -> forall a,
  value (Z.of_nat a) w = Some (Z.of_nat (fold_left (fun a c => 10 * a + (code c - 48)) w a)).
Proof.
  induction 1 as [|c w H _ IH]; intros a; [reflexivity|]. cbn [value fold_left]. rewrite digit_is_digit by auto.
  rewrite <- IH. f_equal. unfold code. lia.
Qed.
Lemma decimal_unsigned n w : decimal n w -> unsigned w = Some (Z.of_nat n).
Proof.
  intros (N & F & V & _). unfold unsigned. destruct w as [|c w]; [congruence|]. change 0%Z with (Z.of_nat 0).
  rewrite value_fold by auto. rewrite V. reflexivity.
Qed.
Lemma decimal_int n w : decimal n w -> to_int w = Some (Z.of_nat n).
Proof.
  intros D. pose proof (decimal_unsigned n w D) as U. destruct D as (N & F & _). unfold to_int.
  destruct w as [|c w]; [congruence|]. inversion_clear F as [|? ? (A & B) _].
  rewrite !char_neq; [exact U| |]; cbn; lia.
Qed.
Lemma decimal_neg n w : decimal n w -> to_int ("-"%char :: w) = Some (- Z.of_nat n)%Z.
Proof. intros D. cbn [to_int]. rewrite Ascii.eqb_refl, (decimal_unsigned n w D). reflexivity. Qed.

Lemma some_inj {A} (a b : A) : Some a = Some b -> a = b.
Proof. congruence. Qed.
Lemma digits_ok fuel : forall n, n < fuel -> decimal n (digits fuel n).
Proof.
  induction fuel as [|fuel IH]; intros n Hn; [lia|]. cbn [digits]. destruct (Nat.ltb_spec n 10) as [L|G].
  - unfold decimal. split; [discriminate|]. pose proof (code_digit n L) as C. split; [|split].
    + constructor; [unfold is_decimal_digit; lia|constructor].
    + cbn [fold_left]. lia.
    + cbn [hd_error]. intros E. apply some_inj in E. rewrite E in C. change (code "0"%char) with 48 in C. lia.
  - assert (Q : n / 10 < fuel) by (assert (n / 10 < n) by (apply Nat.div_lt; lia); lia).
    assert (Q1 : 1 <= n / 10) by (apply Nat.div_le_lower_bound; lia).
    pose proof (Nat.mod_upper_bound n 10 ltac:(lia)) as M. pose proof (code_digit _ M) as C.
    destruct (IH _ Q) as (N & F & V & Z). unfold decimal. split; [|split; [|split]].
    + intros E. apply app_eq_nil in E as (_ & E). discriminate E.
    + apply Forall_app. split; [exact F|]. constructor; [unfold is_decimal_digit; lia|constructor].
    + rewrite fold_left_app, V. cbn [fold_left]. rewrite C, Nat.add_comm, Nat.add_sub_swap, Nat.sub_diag, Nat.add_0_l by lia.
      rewrite Nat.add_comm. symmetry. apply Nat.div_mod. lia.
    + destruct (digits fuel (n / 10)) as [|c w]; [congruence|]. cbn [hd_error app] in Z |- *. intros E. specialize (Z E). lia.
Qed.
Lemma str_nat_ok n : decimal n (str_nat n).
Proof. apply digits_ok. lia. Qed.

(** ** Words and lines *)
Lemma split_blank b s : Forall blank b -> split (b ++ s) = split s.
Proof.
  unfold split. induction 1 as [|c b H _ IH]; [reflexivity|]. cbn [app split_from].
  rewrite (blank_space c H). cbn [flush app]. exact IH.
Qed.
Lemma split_word w : Forall (fun c => 33 <= code c) w -> forall cur s, (forall c, hd_error s = Some c -> blank c) ->
  split_from cur (w ++ s) = flush (rev w ++ cur) ++ split s.
Proof.
  induction 1 as [|c w H _ IH]; intros cur s Hs.
  - cbn [app rev]. destruct s as [|c s]; [cbn; rewrite app_nil_r; reflexivity|].
    unfold split. cbn [split_from]. rewrite (blank_space c) by (apply Hs; reflexivity). reflexivity.
  - cbn [app split_from rev]. rewrite (dark_not_space c H), IH by auto. rewrite <- app_assoc. reflexivity.
Qed.
Lemma words_split ws s : words ws s -> split s = ws.
Proof.
  induction 1 as [b H|b w s ws Hb Nw Hw Hs _ IH].
  - rewrite <- (app_nil_r b), split_blank by auto. reflexivity.
  - rewrite split_blank by auto. unfold split at 1. rewrite split_word by auto. rewrite app_nil_r, IH.
    unfold flush. destruct (rev w) as [|c r] eqn:E.
    + exfalso. apply Nw. rewrite <- (rev_involutive w), E. reflexivity.
    + rewrite <- E, rev_involutive. reflexivity.
Qed.
Lemma decimal_dark n w : decimal n w -> Forall (fun c => 33 <= code c) w.
Proof. intros (_ & F & _). eapply Forall_impl; [|exact F]. intros c (A & _). cbn. lia. Qed.
Lemma literal_dark l w : literal_word l w -> w <> [] /\ Forall (fun c => 33 <= code c) w.
Proof.
  intros [(_ & D)|(_ & d & -> & D)].
  - split; [apply D|eapply decimal_dark; eauto].
  - split; [discriminate|]. constructor; [cbn; lia|eapply decimal_dark; eauto].
Qed.
Lemma lines_step b s cur : ~ In newline b -> lines_from cur (b ++ newline :: s) = (rev cur ++ b ++ [newline]) :: lines_from [] s.
Proof.
  revert cur. induction b as [|c b IH]; intros cur N; cbn [app lines_from].
  - rewrite Ascii.eqb_refl. reflexivity.
  - destruct (c =? newline)%char eqn:E; [apply Ascii.eqb_eq in E; exfalso; apply N; left; auto|].
    rewrite IH by (intros I; apply N; right; auto). cbn [rev]. rewrite <- app_assoc. reflexivity.
Qed.
Lemma lines_end b : forall cur, ~ In newline b -> cur ++ b <> [] -> lines_from cur b = [rev cur ++ b].
Proof.
  induction b as [|c b IH]; intros cur N Ne; cbn [lines_from].
  - rewrite app_nil_r in Ne |- *. destruct cur; [congruence|reflexivity].
  - destruct (c =? newline)%char eqn:E; [apply Ascii.eqb_eq in E; exfalso; apply N; left; auto|].
    rewrite IH; [|intros I; apply N; right; auto|discriminate]. cbn [rev]. rewrite <- app_assoc. reflexivity.
Qed.
Lemma readlines_concat ls : file_lines ls -> readlines (concat ls) = ls.
Proof.
  unfold readlines. induction 1 as [|l Ne N|l ls (b & -> & N) _ IH]; [reflexivity| |].
  - cbn [concat]. rewrite app_nil_r. apply (lines_end l []); auto.
  - cbn [concat]. rewrite <- app_assoc. cbn [app]. fold newline. rewrite lines_step by exact N. rewrite IH. reflexivity.
Qed.
Lemma full_file ls : Forall full_line ls -> file_lines ls.
Proof. induction 1; constructor; auto. Qed.

(** ** The lines *)
Lemma starts_one a l : starts [a] l = true <-> hd_error l = Some a.
Proof.
  destruct l as [|b l]; cbn; [split; discriminate|]. rewrite andb_true_r, Ascii.eqb_eq. split; congruence.
Qed.
Lemma comment_skip l : comment_line l -> skip_line l = true /\ starts (lit "p cnf") l = false.
Proof.
  intros H. destruct l as [|c l]; [discriminate|]. injection H as ->. split; reflexivity.
Qed.
Lemma trailer_skip l : trailer_line l -> skip_line l = true.
Proof.
  intros (c & H & I). unfold skip_line.
  destruct l as [|a l]; [discriminate|]. injection H as ->. cbn in I.
  destruct I as [<-|[<-|[<-|[<-|[]]]]]; reflexivity.
Qed.
Lemma starts_app p s : starts p (p ++ s) = true.
Proof. induction p as [|c p IH]; [destruct s; reflexivity|]. cbn. rewrite Ascii.eqb_refl, IH. reflexivity. Qed.
Lemma header_ok nv nc l : header_line nv nc l ->
  skip_line l = true /\ starts (lit "p cnf") l = true /\
  exists x y a b, split l = [x; y; a; b] /\ to_int a = Some (Z.of_nat nv) /\ to_int b = Some (Z.of_nat nc).
Proof.
  intros (rest & a & b & -> & Hr & W & Da & Db). split; [reflexivity|]. split; [apply starts_app|].
  exists (lit "p"), (lit "cnf"), a, b. split; [|split; apply decimal_int; auto].
  apply words_split.
  change (list_ascii_of_string "p cnf" ++ rest) with ([] ++ lit "p" ++ (lit " " ++ lit "cnf" ++ rest)).
  apply words_cons; auto; [discriminate|repeat constructor; cbn; lia|cbn; intros c E; injection E as <-; left; reflexivity|].
  apply words_cons; auto; [repeat constructor|discriminate|repeat constructor; cbn; lia].
Qed.
Lemma clause_first ls l : clause_line ls l -> ls <> [] -> skip_line l = false.
Proof.
  intros (Nn & ws & W & F) Ne. destruct F as [|l0 w ls ws L F]; [congruence|]. cbn [app] in W.
  inversion W as [|b w0 s ws0 Hb Nw Dw Hs Ws]. subst. unfold skip_line.
  assert (C : forall c, hd_error (b ++ w ++ s) = Some c -> c = " "%char \/ c = "009"%char \/ c = "013"%char \/ c = "-"%char \/ 49 <= code c <= 57).
  { intros c. destruct b as [|x b].
    - cbn [app]. destruct L as [(_ & N & D & V & Z)|(_ & d & -> & _)].
      + destruct w as [|y w]; [congruence|]. cbn. intros E. injection E as ->. inversion_clear D as [|? ? (A & B) _].
        do 4 right. split; [|exact B]. destruct (Nat.eq_dec (code c) 48) as [E|]; [|lia].
        assert (c = "0"%char) by (apply code_inj; rewrite E; reflexivity). subst c. specialize (Z eq_refl). lia.
      + cbn. intros E. injection E as <-. tauto.
    - cbn [app hd_error] in Nn |- *. intros E. apply some_inj in E. subst x.
      assert (B : blank c) by (inversion Hb; auto). destruct B as [B|[B|[B|B]]]; try tauto.
      exfalso. apply Nn. rewrite B. reflexivity. }
  destruct (b ++ w ++ s) as [|c r] eqn:E; [reflexivity|]. specialize (C c eq_refl). unfold lit. cbn [list_ascii_of_string starts].
  rewrite !andb_true_r.
  assert (X : forall a, In a ["c"; "p"; "%"; newline; "0"]%char -> (a =? c)%char = false).
  { intros a I. apply char_neq. intros Q.
    assert (K : In (code a) [99; 112; 37; 10; 48]).
    { destruct I as [<-|[<-|[<-|[<-|[<-|[]]]]]]; vm_compute; tauto. }
    assert (K' : In (code c) [32; 9; 13; 45] \/ 49 <= code c <= 57).
    { destruct C as [-> |[-> |[-> |[-> |C]]]]; [left|left|left|left|right; exact C]; vm_compute; tauto. }
    rewrite Q in K. cbn [In] in K, K'. lia. }
  rewrite !X by (cbn; tauto). reflexivity.
Qed.

(** ** The loop *)
Definition zv (l : nat * Z) : Z := Z.of_nat (fst l).
Definition number (l : nat * Z) : Z := (snd l * (Z.of_nat (fst l) + 1))%Z.
Definition occ_v (v : nat) (cls : list (list (nat * Z))) : list Z := map (fun p => Z.of_nat (fst p)) (occurrences v cls).
Definition occ_t (v : nat) (cls : list (list (nat * Z))) : list Z := map snd (occurrences v cls).
Definition state_of (nv : nat) (k : option nat) (cls : list (list (nat * Z))) : cnf :=
  {| q_conx := map (map zv) cls; q_types := map (map snd) cls; q_used := concat (map (map zv) cls);
     q_vconx := map (fun v => occ_v v cls) (seq 0 nv); q_vtypes := map (fun v => occ_t v cls) (seq 0 nv);
     q_k := k; q_solver := map (map number) cls |}.

Lemma parse_literal_ok l w : literal_word l w -> parse_literal w = Some (zv l, snd l) /\ to_int w = Some (number l).
Proof.
  intros [(T & D)|(T & d & -> & D)]; unfold parse_literal, number, zv; rewrite T.
  - rewrite (decimal_int _ _ D). assert (E : starts (lit "-") w = false).
    { destruct (starts (lit "-") w) eqn:S; [|reflexivity]. apply starts_one in S. destruct D as (_ & F & _).
      destruct w as [|c w]; [discriminate|]. injection S as ->. inversion_clear F as [|? ? (A & _) _]. cbn in A. lia. }
    rewrite E. cbn [bind]. split; f_equal; [f_equal; lia|lia].
  - cbn [starts lit list_ascii_of_string tl]. rewrite Ascii.eqb_refl. cbn [andb]. rewrite decimal_neg with (n := fst l + 1) by exact D.
    rewrite (decimal_int _ _ D). cbn [bind]. split; f_equal; [f_equal; lia|lia].
Qed.
Lemma append_at_map {A} (g : nat -> list A) nv v x : v < nv ->
  append_at (map g (seq 0 nv)) (Z.of_nat v) x = Some (map (fun u => if u =? v then g u ++ [x] else g u) (seq 0 nv)).
Proof.
  intros Hv. unfold append_at, py_pos. rewrite map_length, seq_length.
  rewrite (proj2 (Z.leb_le _ _)) by lia. rewrite (proj2 (Z.ltb_lt _ _)) by lia. cbn [andb bind]. rewrite Nat2Z.id.
  unfold get. rewrite nth_error_map, (nth_error_nth' _ 0) by (rewrite seq_length; auto). rewrite seq_nth by auto. cbn [option_map Nat.add].
  cbn [bind]. unfold set. rewrite map_length, seq_length, (proj2 (Nat.ltb_lt _ _) Hv). f_equal.
  assert (G : forall y n k, k <= v -> v < k + n ->
    upd (map g (seq k n)) (v - k) y = map (fun u => if u =? v then y else g u) (seq k n)).
  { intros y. induction n as [|n IH]; intros k Hk Hn; [lia|]. cbn [seq map].
    destruct (Nat.eqb_spec k v) as [->|N].
    - rewrite Nat.sub_diag. cbn [upd]. f_equal. apply map_ext_in. intros u Hu. apply in_seq in Hu.
      destruct (Nat.eqb_spec u v); [lia|reflexivity].
    - replace (v - k) with (S (v - S k)) by lia. cbn [upd]. f_equal. apply IH; lia. }
  rewrite <- (Nat.sub_0_r v) at 1. rewrite G by lia. apply map_ext. intros u.
  destruct (Nat.eqb_spec u v); [subst; reflexivity|reflexivity].
Qed.

Lemma combine_snoc {A B} (l : list A) (l' : list B) a b : length l = length l' ->
  combine (l ++ [a]) (l' ++ [b]) = combine l l' ++ [(a, b)].
Proof.
  revert l'. induction l as [|x l IH]; intros [|y l'] H; try discriminate; [reflexivity|]. cbn. f_equal. apply IH. cbn in H. lia.
Qed.
Lemma occurrences_snoc v cls cl :
  occurrences v (cls ++ [cl]) = occurrences v cls ++ map (fun l => (length cls, snd l)) (filter (fun l => fst l =? v) cl).
Proof.
  unfold occurrences. rewrite app_length, seq_app. cbn [length seq Nat.add].
  rewrite combine_snoc by (rewrite seq_length; reflexivity). rewrite flat_map_app. cbn [flat_map fst snd].
  rewrite app_nil_r. reflexivity.
Qed.

(** one clause *)
Lemma literals_ok ci nv cl ws : Forall2 literal_word cl ws -> Forall (fun l => fst l < nv) cl ->
  forall used (g h : nat -> list Z) conn ct,
  foldM (literal_step ci) ws (used, map g (seq 0 nv), map h (seq 0 nv), conn, ct) =
  Some (used ++ map zv cl,
        map (fun v => g v ++ map (fun _ => ci) (filter (fun l => fst l =? v) cl)) (seq 0 nv),
        map (fun v => h v ++ map snd (filter (fun l => fst l =? v) cl)) (seq 0 nv),
        conn ++ map zv cl, ct ++ map snd cl).
Proof.
  induction 1 as [|l w cl ws L _ IH]; intros B used g h conn ct.
  - cbn [foldM map filter]. rewrite !app_nil_r.
    assert (E : forall g : nat -> list Z, map (fun v => g v ++ []) (seq 0 nv) = map g (seq 0 nv)).
    { intros g0. apply map_ext. intros. apply app_nil_r. }
    rewrite !E. reflexivity.
  - inversion_clear B as [|? ? Bl Bs]. cbn [foldM]. unfold literal_step at 1.
    rewrite (proj1 (parse_literal_ok l w L)). cbn [bind]. unfold zv at 1 2. rewrite !append_at_map by auto. cbn [bind].
    rewrite IH by auto. cbn [map]. rewrite <- !app_assoc. cbn [app]. fold (zv l).
    assert (E : forall (g : nat -> list Z) x (f : nat * Z -> Z), f l = x ->
      map (fun v => (if v =? fst l then g v ++ [x] else g v) ++ map f (filter (fun l => fst l =? v) cl)) (seq 0 nv) =
      map (fun v => g v ++ map f (filter (fun l => fst l =? v) (l :: cl))) (seq 0 nv)).
    { intros g0 x f <-. apply map_ext. intros v. cbn [filter]. rewrite (Nat.eqb_sym v).
      destruct (fst l =? v); cbn [map]; [rewrite <- app_assoc|]; reflexivity. }
    rewrite (E g ci (fun _ => ci)), (E h (snd l) snd) by reflexivity. reflexivity.
Qed.
Lemma numbers_ok cl ws : Forall2 literal_word cl ws -> mapM to_int ws = Some (map number cl).
Proof.
  induction 1 as [|l w cl ws L _ IH]; [reflexivity|]. cbn [mapM]. rewrite (proj2 (parse_literal_ok l w L)), IH. reflexivity.
Qed.

Lemma line_ok nv k start cls cl line : 1 <= k -> length cl = k -> Forall (fun l => fst l < nv) cl -> clause_line cl line ->
  line_step start (state_of nv (if length cls =? 0 then None else Some k) cls) (start + length cls, line) =
  Some (state_of nv (Some k) (cls ++ [cl])).
Proof.
  intros Hk Lk B C. unfold line_step. rewrite (clause_first cl line) by (auto; intros ->; cbn in Lk; lia).
  destruct C as (_ & ws & W & F). rewrite (words_split _ _ W), removelast_last, (numbers_ok cl ws F). cbn [bind].
  unfold state_of at 1 2 3. cbn [q_used q_vconx q_vtypes].
  rewrite (literals_ok _ nv cl ws F B). cbn [bind app]. rewrite map_length, Lk.
  replace (Z.of_nat (start + length cls) - Z.of_nat start)%Z with (Z.of_nat (length cls)) by lia.
  unfold state_of. cbn [q_k q_conx q_types q_solver].
  assert (E : (if (Z.of_nat (length cls) =? 0)%Z then Some k
    else k0 <- (if length cls =? 0 then None else Some k) ;; (if k0 =? k then Some k0 else None)) = Some k).
  { destruct (Nat.eqb_spec (length cls) 0) as [->|N]; [reflexivity|].
    rewrite (proj2 (Z.eqb_neq _ _)) by lia. cbn [bind]. rewrite Nat.eqb_refl. reflexivity. }
  rewrite E. cbn [bind]. rewrite !map_app, concat_app. cbn [map concat]. rewrite app_nil_r.
  apply f_equal. f_equal.
  - apply map_ext. intros v. unfold occ_v. rewrite occurrences_snoc, map_app, map_map. cbn [fst]. reflexivity.
  - apply map_ext. intros v. unfold occ_t. rewrite occurrences_snoc, map_app, map_map. cbn [snd]. reflexivity.
Qed.
Lemma skips start q : forall ls i, Forall (fun l => skip_line l = true) ls ->
  foldM (line_step start) (combine (seq i (length ls)) ls) q = Some q.
Proof.
  induction ls as [|l ls IH]; intros i H; [reflexivity|]. inversion_clear H as [|? ? Hl Hs].
  cbn [length seq combine foldM]. unfold line_step at 1. rewrite Hl. cbn [bind]. apply IH, Hs.
Qed.
Lemma body_ok nv k start : 1 <= k -> forall todo lines, Forall2 clause_line todo lines ->
  Forall (fun cl => length cl = k /\ Forall (fun l => fst l < nv) cl) todo -> forall cls,
  foldM (line_step start) (combine (seq (start + length cls) (length lines)) lines)
    (state_of nv (if length cls =? 0 then None else Some k) cls) =
  Some (state_of nv (if length (cls ++ todo) =? 0 then None else Some k) (cls ++ todo)).
Proof.
  intros Hk todo lines F. induction F as [|cl line todo lines C _ IH]; intros B cls.
  - rewrite app_nil_r. reflexivity.
  - inversion_clear B as [|? ? (Lk & Bl) Bs]. cbn [length seq combine foldM]. rewrite (line_ok nv k) with (cl := cl) by auto.
    cbn [bind]. specialize (IH Bs (cls ++ [cl])). rewrite app_length in IH. cbn [length] in IH.
    rewrite Nat.add_assoc, Nat.add_1_r in IH. replace (length cls + 1 =? 0) with false in IH by (symmetry; apply Nat.eqb_neq; lia).
    rewrite IH, <- app_assoc. reflexivity.
Qed.
Lemma combine_seq_app {A} (l l' : list A) i :
  combine (seq i (length (l ++ l'))) (l ++ l') = combine (seq i (length l)) l ++ combine (seq (i + length l) (length l')) l'.
Proof.
  revert i. induction l as [|x l IH]; intros i; cbn [app length seq combine].
  - rewrite Nat.add_0_r. reflexivity.
  - rewrite IH. rewrite <- Nat.add_succ_comm. reflexivity.
Qed.
Lemma foldM_app {S A} (body : S -> A -> option S) l l' s :
  foldM body (l ++ l') s = (s' <- foldM body l s ;; foldM body l' s').
Proof. revert s. induction l as [|a l IH]; intros s; cbn; [reflexivity|]. destruct (body s a); cbn; auto. Qed.
Lemma find_header_ok i (pre : list (list ascii)) (header : list ascii) (rest : list (list ascii)) : Forall comment_line pre -> starts (lit "p cnf") header = true ->
  find_header i (pre ++ header :: rest) = Some (i + length pre, header).
Proof.
  intros H Hh. revert i. induction H as [|l pre C _ IH]; intros i; cbn [app find_header length].
  - rewrite Hh, Nat.add_0_r. reflexivity.
  - rewrite (proj2 (comment_skip l C)), IH. rewrite <- Nat.add_succ_comm. reflexivity.
Qed.

Lemma read_ok ord nv nc k cls s : 1 <= k -> cls <> [] ->
  Forall (fun cl => length cl = k /\ Forall (fun l => fst l < nv) cl) cls -> dimacs nv nc cls s ->
  read_cnf ord s = Some {| z_nv := Z.of_nat nv; z_nc := Z.of_nat nc; z_k := k;
    z_lists := {| q_conx := map (map zv) cls; q_types := map (map snd) cls;
      q_used := ord (nodup Z.eq_dec (concat (map (map zv) cls)));
      q_vconx := map (fun v => occ_v v cls) (seq 0 nv); q_vtypes := map (fun v => occ_t v cls) (seq 0 nv);
      q_k := Some k; q_solver := map (map number) cls |} |}.
Proof.
  intros Hk Ne B (pre & header & body & post & -> & Fl & Fp & Hh & Fb & Ft).
  unfold read_cnf. cbv zeta. rewrite readlines_concat by auto. destruct (header_ok nv nc header Hh) as (Sk & St & x & y & a & b & Sp & Ia & Ib).
  rewrite (find_header_ok 0 pre header (body ++ post) Fp St). cbn [bind Nat.add]. rewrite Sp, Ia, Ib. cbn [bind]. rewrite Nat2Z.id.
  unfold enumerate. rewrite combine_seq_app, foldM_app.
  rewrite skips by (eapply Forall_impl; [|exact Fp]; intros l Hl; apply comment_skip, Hl). cbn [bind].
  cbn [length seq combine foldM]. unfold line_step at 1. rewrite Sk. cbn [bind Nat.add].
  rewrite combine_seq_app, foldM_app.
  assert (E : {| q_conx := []; q_types := []; q_used := []; q_vconx := repeat [] nv; q_vtypes := repeat [] nv; q_k := None; q_solver := [] |}
    = state_of nv None []).
  { unfold state_of. cbn [map concat]. assert (R : forall n i, repeat ([] : list Z) n = map (fun v => []) (seq i n)).
    { induction n as [|n IH]; intros i; cbn; [reflexivity|]. f_equal. apply IH. }
    f_equal; apply R. }
  rewrite E. pose proof (body_ok nv k (length pre + 1) Hk cls body Fb B []) as X. cbn [length app Nat.eqb] in X.
  rewrite Nat.add_0_r, Nat.add_1_r in X. rewrite Nat.add_1_r, X. cbn [bind].
  rewrite skips by (eapply Forall_impl; [|exact Ft]; intros l Hl; apply trailer_skip, Hl). cbn [bind].
  destruct cls as [|cl cls]; [congruence|]. cbn [length Nat.eqb]. unfold state_of. cbn [q_k bind q_conx q_types q_used q_vconx q_vtypes q_solver].
  reflexivity.
Qed.

(** ** The written file *)
Lemma blank_newline : blank newline.
Proof. right. right. left. reflexivity. Qed.
Lemma words_blank b ws s : Forall blank b -> words ws s -> words ws (b ++ s).
Proof.
  intros B W. destruct W as [b' Hb|b' w s ws Hb Nw Dw Hs W].
  - apply words_nil. apply Forall_app. auto.
  - rewrite app_assoc. apply words_cons; auto. apply Forall_app. auto.
Qed.
Lemma words_spaced ws tail us : Forall (fun w => w <> [] /\ Forall (fun c => 33 <= code c) w) ws -> words us tail ->
  words (ws ++ us) (concat (map (fun w => w ++ lit " ") ws) ++ tail).
Proof.
  intros F T. induction F as [|w ws (Nw & Dw) _ IH]; [exact T|]. cbn [app map concat].
  rewrite <- app_assoc, <- app_assoc.
  apply (words_cons [] w (lit " " ++ concat (map (fun w => w ++ lit " ") ws) ++ tail) (ws ++ us)); auto.
  - cbn. intros c E. apply some_inj in E. left. auto.
  - apply words_blank; [repeat constructor|exact IH].
Qed.
Definition word (l : nat * Z) : text := (if (snd l =? -1)%Z then lit "-" else []) ++ str_nat (fst l + 1).
Definition sign_ok (l : nat * Z) : Prop := snd l = 1%Z \/ snd l = (-1)%Z.
Lemma word_ok l : sign_ok l -> literal_word l (word l).
Proof.
  intros [T|T]; unfold literal_word, word; rewrite T.
  - left. split; [reflexivity|]. apply str_nat_ok.
  - right. split; [reflexivity|]. exists (str_nat (fst l + 1)). split; [reflexivity|apply str_nat_ok].
Qed.
Definition line_of (cl : list (nat * Z)) : text := concat (map (fun w => w ++ lit " ") (map word cl)) ++ lit "0" ++ [newline].
Lemma zero_word : words [lit "0"] (lit "0" ++ [newline]).
Proof.
  apply (words_cons [] (lit "0") [newline] []); auto; [discriminate|repeat constructor; cbn; lia| |].
  - cbn. intros c E. apply some_inj in E. subst. right. right. left. reflexivity.
  - apply words_nil. constructor; [exact blank_newline|constructor].
Qed.
Lemma line_of_clause cl : cl <> [] -> Forall sign_ok cl -> clause_line cl (line_of cl).
Proof.
  intros Ne F. assert (W : Forall2 literal_word cl (map word cl)).
  { clear Ne. induction F; cbn; constructor; auto. apply word_ok; auto. }
  split.
  - destruct cl as [|l cl]; [congruence|]. inversion_clear W as [|? ? ? ? L _]. destruct (literal_dark _ _ L) as (N & D).
    unfold line_of. cbn [map concat]. destruct (word l) as [|c r]; [congruence|]. cbn [app hd_error].
    inversion_clear D as [|? ? Dc _]. intros E. apply some_inj in E. subst c. vm_compute in Dc. lia.
  - exists (map word cl). split; [|exact W]. apply words_spaced; [|apply zero_word].
    clear Ne F. induction W as [|l w cl ws L _ IH]; constructor; auto. eapply literal_dark; eauto.
Qed.
Lemma dark_no_newline w : Forall (fun c => 33 <= code c) w -> ~ In newline w.
Proof. intros F I. rewrite Forall_forall in F. apply F in I. vm_compute in I. lia. Qed.
Lemma line_of_full cl : Forall sign_ok cl -> full_line (line_of cl).
Proof.
  intros F. exists (concat (map (fun w => w ++ lit " ") (map word cl)) ++ lit "0"). split; [unfold line_of; rewrite <- app_assoc; reflexivity|].
  rewrite in_app_iff. intros [I|I]; [|vm_compute in I; intuition discriminate].
  apply in_concat in I as (x & Ix & I). rewrite map_map in Ix. apply in_map_iff in Ix as (l & <- & Il).
  apply in_app_iff in I as [I|I]; [|vm_compute in I; intuition discriminate].
  rewrite Forall_forall in F. apply (dark_no_newline (word l)); [|exact I]. eapply literal_dark, word_ok, F, Il.
Qed.
Lemma str_nat_dark n : Forall (fun c => 33 <= code c) (str_nat n).
Proof. eapply decimal_dark, str_nat_ok. Qed.
Definition header_of (nv nc : nat) : text := lit "p cnf " ++ str_nat nv ++ lit " " ++ str_nat nc ++ [newline].
Lemma header_of_line nv nc : header_line nv nc (header_of nv nc) /\ full_line (header_of nv nc).
Proof.
  split.
  - exists (lit " " ++ str_nat nv ++ lit " " ++ str_nat nc ++ [newline]), (str_nat nv), (str_nat nc).
    split; [reflexivity|]. split; [cbn; intros c E; apply some_inj in E; left; auto|]. split; [|split; apply str_nat_ok].
    assert (B : forall c, hd_error (lit " ") = Some c -> blank c) by (cbn; intros c E; apply some_inj in E; left; auto).
    apply words_cons; [repeat constructor|apply str_nat_ok|apply str_nat_dark|exact B|].
    apply words_cons; [repeat constructor|apply str_nat_ok|apply str_nat_dark| |].
    + cbn. intros c E. apply some_inj in E. subst. right. right. left. reflexivity.
    + apply words_nil. constructor; [exact blank_newline|constructor].
  - exists (lit "p cnf " ++ str_nat nv ++ lit " " ++ str_nat nc). split; [unfold header_of; rewrite <- !app_assoc; reflexivity|].
    rewrite !in_app_iff. intros [I|[I|[I|I]]]; try (vm_compute in I; intuition discriminate);
      eapply dark_no_newline; try exact I; apply str_nat_dark.
Qed.

Lemma mapM_zip {A B C} (G : A -> B -> option C) : forall (l' : list B) (l pre : list A), length l = length l' ->
  mapM (fun it => x <- get (pre ++ l) (fst it) ;; G x (snd it)) (combine (seq (length pre) (length l')) l') =
  mapM (fun p => G (fst p) (snd p)) (combine l l').
Proof.
  induction l' as [|b l' IH]; intros [|a l] pre H; try discriminate; [reflexivity|]. cbn [length seq combine mapM fst snd].
  unfold get at 1. rewrite nth_error_app2, Nat.sub_diag by lia. cbn [nth_error bind].
  specialize (IH l (pre ++ [a])). rewrite app_length, Nat.add_1_r in IH. rewrite <- app_assoc in IH. cbn [app] in IH.
  rewrite IH by (cbn in H; lia). reflexivity.
Qed.
Lemma mapM_total {A B} (f : A -> B) l : mapM (fun a => Some (f a)) l = Some (map f l).
Proof. induction l as [|a l IH]; [reflexivity|]. cbn. rewrite IH. reflexivity. Qed.
Lemma create_ok conx types nv nc : length conx = length types -> Forall (fun p => length (fst p) = length (snd p)) (combine conx types) ->
  create_cnf conx types nv nc =
  Some (concat (header_of nv nc :: map (fun p => line_of (combine (fst p) (snd p))) (combine conx types))).
Proof.
  intros L F. unfold create_cnf, enumerate. pose proof (mapM_zip clause_text types conx [] L) as Z0. cbn [app length] in Z0. rewrite Z0.
  assert (E : mapM (fun p => clause_text (fst p) (snd p)) (combine conx types) =
    Some (map (fun p => line_of (combine (fst p) (snd p))) (combine conx types))).
  { clear L Z0. induction F as [|(cx, ty) l H _ IH]; [reflexivity|]. cbn [mapM map fst snd]. rewrite IH.
    unfold clause_text, enumerate. cbn [fst snd] in H.
    pose proof (mapM_zip (fun v t => Some (literal_text v t)) ty cx [] H) as Z1. cbn [app length] in Z1. rewrite Z1.
    rewrite (mapM_total (fun p => literal_text (fst p) (snd p))). cbn [bind]. unfold line_of at 2. rewrite !map_map.
    assert (Y : map (fun p => literal_text (fst p) (snd p)) (combine cx ty) = map (fun l => word l ++ lit " ") (combine cx ty)).
    { apply map_ext. intros (v, t). unfold word, literal_text. cbn [fst snd]. rewrite <- app_assoc. reflexivity. }
    rewrite Y. reflexivity. }
  rewrite E. reflexivity.
Qed.
Lemma create_dimacs conx types nv nc k : 1 <= k -> length conx = length types ->
  Forall (fun p => length (fst p) = k /\ length (snd p) = k /\ Forall (fun t => t = 1%Z \/ t = (-1)%Z) (snd p)) (combine conx types) ->
  exists s, create_cnf conx types nv nc = Some s /\
    dimacs nv nc (map (fun p => combine (fst p) (snd p)) (combine conx types)) s.
Proof.
  intros Hk L F. eexists. split.
  - apply create_ok; auto. eapply Forall_impl; [|exact F]. intros p (A & B & _). congruence.
  - assert (Sg : forall p, In p (combine conx types) -> combine (fst p) (snd p) <> [] /\ Forall sign_ok (combine (fst p) (snd p))).
    { intros (cx, ty) I. rewrite Forall_forall in F. destruct (F _ I) as (A & B & C). cbn [fst snd] in *. split.
      - destruct cx, ty; cbn in *; try lia. discriminate.
      - apply Forall_forall. intros (v, t) Ivt. apply in_combine_r in Ivt. rewrite Forall_forall in C. apply C, Ivt. }
    destruct (header_of_line nv nc) as (H1 & H2).
    exists [], (header_of nv nc), (map (fun p => line_of (combine (fst p) (snd p))) (combine conx types)), [].
    rewrite app_nil_r. split; [reflexivity|]. split; [|split; [constructor|split; [exact H1|split; [|constructor]]]].
    + apply full_file. cbn [app]. constructor; [exact H2|]. apply Forall_map. apply Forall_forall. intros p I. apply line_of_full, Sg, I.
    + clear F. induction (combine conx types) as [|p l IH]; cbn [map]; constructor.
      * apply line_of_clause; apply Sg; left; reflexivity.
      * apply IH. intros q I. apply Sg. right. exact I.
Qed.

(** ** Unequal clauses *)
Lemma forall2_len {A B} (R : A -> B -> Prop) l l' : Forall2 R l l' -> length l = length l'.
Proof. induction 1; cbn; congruence. Qed.
Lemma line_bad nv k start cls cl line : length cls <> 0 -> cl <> [] -> length cl <> k -> Forall (fun l => fst l < nv) cl ->
  clause_line cl line -> line_step start (state_of nv (Some k) cls) (start + length cls, line) = None.
Proof.
  intros Nc Ne Lk B C. unfold line_step. rewrite (clause_first cl line) by auto.
  destruct C as (_ & ws & W & F). rewrite (words_split _ _ W), removelast_last, (numbers_ok cl ws F). cbn [bind].
  unfold state_of at 1 2 3. cbn [q_used q_vconx q_vtypes].
  rewrite (literals_ok _ nv cl ws F B). cbn [bind app]. rewrite map_length.
  replace (Z.of_nat (start + length cls) - Z.of_nat start)%Z with (Z.of_nat (length cls)) by lia.
  rewrite (proj2 (Z.eqb_neq _ _)) by lia. cbn [q_k state_of bind].
  rewrite (proj2 (Nat.eqb_neq k _)) by congruence. reflexivity.
Qed.
Lemma read_bad ord nv nc k good bad rest s : 1 <= k -> good <> [] -> bad <> [] -> length bad <> k ->
  Forall (fun cl => length cl = k /\ Forall (fun l => fst l < nv) cl) good -> Forall (fun l => fst l < nv) bad ->
  dimacs nv nc (good ++ bad :: rest) s -> read_cnf ord s = None.
Proof.
  intros Hk Ng Nb Lb B Bb (pre & header & body & post & -> & Fl & Fp & Hh & Fb & _).
  apply Forall2_app_inv_l in Fb as (b1 & b2 & F1 & F2 & ->). inversion F2 as [|bad0 l2 rest0 b3 C2 F3 Eq1 Eq2]. subst bad0 rest0 b2. clear F2 F3.
  unfold read_cnf. cbv zeta. rewrite readlines_concat by auto. destruct (header_ok nv nc header Hh) as (Sk & St & x & y & a & b & Sp & Ia & Ib).
  rewrite (find_header_ok 0 pre header ((b1 ++ l2 :: b3) ++ post) Fp St). cbn [bind Nat.add]. rewrite Sp, Ia, Ib. cbn [bind]. rewrite Nat2Z.id.
  unfold enumerate. rewrite combine_seq_app, foldM_app.
  rewrite skips by (eapply Forall_impl; [|exact Fp]; intros l Hl; apply comment_skip, Hl). cbn [bind].
  cbn [length seq combine foldM]. unfold line_step at 1. rewrite Sk. cbn [bind Nat.add].
  rewrite <- app_assoc, combine_seq_app, foldM_app.
  assert (E : {| q_conx := []; q_types := []; q_used := []; q_vconx := repeat [] nv; q_vtypes := repeat [] nv; q_k := None; q_solver := [] |}
    = state_of nv None []).
  { unfold state_of. cbn [map concat]. assert (R : forall n i, repeat ([] : list Z) n = map (fun v => []) (seq i n)).
    { induction n as [|n IH]; intros i; cbn; [reflexivity|]. f_equal. apply IH. }
    f_equal; apply R. }
  rewrite E. pose proof (body_ok nv k (length pre + 1) Hk good b1 F1 B []) as X. cbn [length app Nat.eqb] in X.
  rewrite Nat.add_0_r, Nat.add_1_r in X. rewrite Nat.add_1_r, X. cbn [bind].
  assert (Lg : length good <> 0) by (destruct good; cbn; congruence). rewrite (proj2 (Nat.eqb_neq _ _) Lg).
  cbn [app length seq combine foldM]. rewrite <- (forall2_len _ _ _ F1), (line_bad nv k _ good bad l2) by auto. reflexivity.
Qed.

(** ** The model of the solver *)
Lemma in_occurrences v c t cls : In (c, t) (occurrences v cls) <-> exists cl, nth_error cls c = Some cl /\ In (v, t) cl.
Proof.
  induction cls as [|cl cls IH] using rev_ind.
  - cbn. split; [tauto|]. intros (cl & E & _). destruct c; discriminate.
  - rewrite occurrences_snoc, in_app_iff, IH. split.
    + intros [(cl' & E & I)|I].
      * exists cl'. split; [|auto]. rewrite nth_error_app1; [auto|]. apply nth_error_Some. congruence.
      * apply in_map_iff in I as ((v', t') & E & I). apply filter_In in I as (I & V). apply Nat.eqb_eq in V. cbn in E, V. subst v'.
        injection E as <- <-. exists cl. split; [|auto]. rewrite nth_error_app2, Nat.sub_diag by lia. reflexivity.
    + intros (cl' & E & I). destruct (Nat.lt_ge_cases c (length cls)) as [L|G].
      * rewrite nth_error_app1 in E by auto. eauto.
      * rewrite nth_error_app2 in E by auto. destruct (c - length cls) as [|n] eqn:Ec; [|destruct n; discriminate].
        cbn in E. injection E as <-. right. apply in_map_iff. exists (v, t). split; [cbn; f_equal; lia|].
        apply filter_In. split; [auto|]. cbn. apply Nat.eqb_refl.
Qed.
Lemma in_enumerate {A} (l : list A) i x : In (i, x) (enumerate l) <-> nth_error l i = Some x.
Proof.
  induction l as [|y l IH] using rev_ind.
  - cbn. split; [tauto|]. destruct i; discriminate.
  - unfold enumerate in *. rewrite app_length, seq_app. cbn [length seq Nat.add].
    rewrite combine_snoc, in_app_iff, IH by (rewrite seq_length; reflexivity). cbn [In]. split.
    + intros [E|[E|[]]].
      * rewrite nth_error_app1; [auto|]. apply nth_error_Some. congruence.
      * injection E as <- <-. rewrite nth_error_app2, Nat.sub_diag by lia. reflexivity.
    + intros E. destruct (Nat.lt_ge_cases i (length l)) as [L|G].
      * rewrite nth_error_app1 in E by auto. auto.
      * rewrite nth_error_app2 in E by auto. destruct (i - length l) as [|n] eqn:Ec; [|destruct n; discriminate].
        cbn in E. injection E as <-. right. left. f_equal. lia.
Qed.
Lemma in_model_vars b model v : In v (model_vars b model) <-> exists x, nth_error model v = Some x /\ (0 <? x)%Z = b.
Proof.
  unfold model_vars. rewrite in_map_iff. split.
  - intros ((i, x) & <- & I). apply filter_In in I as (I & E). apply in_enumerate in I. apply Bool.eqb_prop in E. eauto.
  - intros (x & E & <-). exists (v, x). split; [reflexivity|]. apply filter_In. split; [apply in_enumerate, E|apply Bool.eqb_reflx].
Qed.

(** the variable view of [cls] in [q] *)
Definition views (nv : nat) (cls : list (list (nat * Z))) (q : cnf) : Prop :=
  q_vconx q = map (fun v => occ_v v cls) (seq 0 nv) /\ q_vtypes q = map (fun v => occ_t v cls) (seq 0 nv).
Lemma nth_view {A} (g : nat -> A) nv v : v < nv -> nth_error (map g (seq 0 nv)) v = Some (g v).
Proof.
  intros H. rewrite nth_error_map, (nth_error_nth' _ 0) by (rewrite seq_length; auto). rewrite seq_nth by auto. reflexivity.
Qed.
Lemma model_hits_ok nv cls q want vars : views nv cls q ->
  exists l, model_hits q want vars = Some l /\
    forall z, In z l <-> exists v c, v < nv /\ In v vars /\ In (c, want) (occurrences v cls) /\ z = Z.of_nat c.
Proof.
  intros (V1 & V2). unfold model_hits. rewrite V1, V2.
  match goal with |- context [mapM ?g ?l0] => destruct (mapM_all g l0) as (r & E & _ & I) end.
  - intros (i, j) H. apply filter_In in H as (H & _). apply in_positions in H as (r & Er & Hj). cbn [fst snd].
    assert (Hi : i < nv) by (rewrite <- (seq_length nv 0), <- (map_length (fun v => occ_t v cls)); apply nth_error_Some; congruence).
    rewrite nth_view in Er by auto. injection Er as <-. unfold get2, get. rewrite nth_view by auto. cbn [bind].
    unfold occ_v, occ_t in *. rewrite map_length in Hj. rewrite nth_error_map.
    destruct (nth_error (occurrences i cls) j) eqn:En; [cbn; eauto|]. apply nth_error_None in En. lia.
  - exists r. split; [exact E|]. intros z. rewrite I. split.
    + intros ((i, j) & H & G). apply filter_In in H as (H & Hw). apply in_positions in H as (r' & Er & Hj). cbn [fst snd] in *.
      assert (Hi : i < nv) by (rewrite <- (seq_length nv 0), <- (map_length (fun v => occ_t v cls)); apply nth_error_Some; congruence).
      apply andb_true_iff in Hw as (Hw & Hm). apply Z.eqb_eq in Hw. apply mem_In in Hm.
      unfold get2, get in G. rewrite nth_view in Er, G by auto. cbn [bind] in G. injection Er as <-.
      rewrite (nth_error_nth _ _ _ (nth_view (fun v => occ_t v cls) nv i Hi)) in Hw. unfold occ_v, occ_t in *.
      rewrite nth_error_map in G. destruct (nth_error (occurrences i cls) j) as [(c, t)|] eqn:En; [|discriminate].
      cbn in G. injection G as <-. rewrite (nth_error_nth (map snd (occurrences i cls)) j 0%Z (x := t)) in Hw by (rewrite nth_error_map, En; reflexivity).
      subst t. exists i, c. repeat split; auto. eapply nth_error_In; eauto.
    + intros (v & c & Hv & Iv & Io & ->). apply In_nth_error in Io as (j & Hj). exists (v, j). cbn [fst snd]. split.
      * apply filter_In. split.
        -- apply in_positions. exists (occ_t v cls). split; [apply (nth_view (fun v => occ_t v cls)), Hv|]. unfold occ_t. rewrite map_length. apply nth_error_Some. congruence.
        -- cbn [fst snd]. rewrite (nth_error_nth _ _ _ (nth_view (fun v => occ_t v cls) nv v Hv)). apply andb_true_iff. split; [|apply mem_In, Iv].
           unfold occ_t. rewrite (nth_error_nth (map snd (occurrences v cls)) j 0%Z (x := want)) by (rewrite nth_error_map, Hj; reflexivity).
           apply Z.eqb_refl.
      * unfold get2, get. rewrite nth_view by auto. cbn [bind]. unfold occ_v. rewrite nth_error_map, Hj. reflexivity.
Qed.

Definition clause_true_in (model : list Z) (cl : list (nat * Z)) : Prop :=
  exists v t x, In (v, t) cl /\ nth_error model v = Some x /\ ((t = 1%Z /\ (0 < x)%Z) \/ (t = (-1)%Z /\ (x <= 0)%Z)).
Lemma model_unsatisfied_ok nv nc cls r model : views nv cls (z_lists r) -> z_nc r = Z.of_nat nc ->
  Forall (Forall (fun l => fst l < nv)) cls ->
  exists u, model_unsatisfied r model = Some u /\
    forall c, In c u <-> c < nc /\ ~ exists cl, nth_error cls c = Some cl /\ clause_true_in model cl.
Proof.
  intros V N B. unfold model_unsatisfied.
  destruct (model_hits_ok nv cls _ 1 (model_vars true model) V) as (l1 & E1 & I1).
  destruct (model_hits_ok nv cls _ (-1) (model_vars false model) V) as (l2 & E2 & I2).
  rewrite E1, E2. cbn [bind]. eexists. split; [reflexivity|]. intros c. rewrite filter_In, N, Nat2Z.id, in_seq, negb_true_iff.
  assert (X : existsb (Z.eqb (Z.of_nat c)) (l1 ++ l2) = true <-> exists cl, nth_error cls c = Some cl /\ clause_true_in model cl).
  { rewrite existsb_exists. split.
    - intros (z & I & Ez). apply Z.eqb_eq in Ez. subst z. apply in_app_iff in I as [I|I].
      + apply I1 in I as (v & c' & Hv & Iv & Io & Ec). assert (c' = c) by lia. subst c'.
        apply in_occurrences in Io as (cl & Ecl & Icl). apply in_model_vars in Iv as (x & Ex & Px). apply Z.ltb_lt in Px.
        exists cl. split; [auto|]. exists v, 1%Z, x. auto.
      + apply I2 in I as (v & c' & Hv & Iv & Io & Ec). assert (c' = c) by lia. subst c'.
        apply in_occurrences in Io as (cl & Ecl & Icl). apply in_model_vars in Iv as (x & Ex & Px). apply Z.ltb_ge in Px.
        exists cl. split; [auto|]. exists v, (-1)%Z, x. auto.
    - intros (cl & Ecl & v & t & x & Icl & Ex & Hx). exists (Z.of_nat c). split; [|apply Z.eqb_refl]. apply in_app_iff.
      assert (Hv : v < nv).
      { rewrite Forall_forall in B. specialize (B cl (nth_error_In _ _ Ecl)). rewrite Forall_forall in B. apply (B (v, t) Icl). }
      destruct Hx as [(-> & Px)|(-> & Px)]; [left; apply I1|right; apply I2]; exists v, c; (split; [auto|]); (split; [|split; [apply in_occurrences; eauto|auto]]);
        apply in_model_vars; exists x; (split; [auto|]); [apply Z.ltb_lt|apply Z.ltb_ge]; auto. }
  destruct (existsb (Z.eqb (Z.of_nat c)) (l1 ++ l2)) eqn:Eb.
  - split; [intros (_ & H); discriminate|]. intros (_ & H). exfalso. apply H, X. reflexivity.
  - split; [|intros (H & _); split; [lia|reflexivity]]. intros (H & _). split; [lia|]. intros K. apply X in K. discriminate.
Qed.
