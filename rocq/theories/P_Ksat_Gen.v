(** * Proofs about the random K-SAT instances. *)
From Verif Require Import Num NumFacts Arr ArrFacts Spec M_Tsp_Run M_Ksat_Py P_Ksat_Py.
From Verif Require P_Equality P_Tsp_Constraints P_Tsp_Py.
From Coq Require Import Permutation.
Local Open Scope nat_scope.

(** ** one clause *)

Lemma in_remaining nv conn x : In x (remaining nv conn) <-> x < nv /\ ~ In x conn.
Proof.
  unfold remaining. rewrite filter_In, in_seq, Bool.negb_true_iff, mem_not_In.
  intuition lia.
Qed.

Lemma remaining_length nv conn : NoDup conn -> Forall (fun v => v < nv) conn ->
  length (remaining nv conn) = nv - length conn.
Proof.
  intros N F.
  assert (P : Permutation (conn ++ remaining nv conn) (seq 0 nv)).
  { apply NoDup_Permutation.
    - assert (Nr : NoDup (remaining nv conn)) by (apply NoDup_filter, seq_NoDup).
      assert (D : forall x, In x conn -> ~ In x (remaining nv conn)) by (intros x H K; apply in_remaining in K; tauto).
      revert Nr D. generalize (remaining nv conn). clear F. induction N as [|a l Ha N IH]; intros r Nr D; cbn; auto.
      constructor.
      + rewrite in_app_iff. intros [H | H]; [auto|apply (D a); [left; auto|auto]].
      + apply IH; auto. intros x Hx. apply D. right; auto.
    - apply seq_NoDup.
    - intros x. rewrite in_app_iff, in_remaining, in_seq. split.
      + intros [H | H]; [apply (proj1 (Forall_forall _ _) F) in H|]; lia.
      + intros H. destruct (in_dec Nat.eq_dec x conn); [left; auto|right; split; [lia|auto]]. }
  apply Permutation_length in P. rewrite app_length, seq_length in P. lia.
Qed.

(** the random numbers are in the ranges asked for *)
Definition valid_draw (nv k : nat) (d : draw) : Prop :=
  d_first d < nv /\ length (d_rest d) = k - 1 /\
  forall j i s, nth_error (d_rest d) j = Some (i, s) -> i < nv - S j.

Definition good_lits (nv : nat) (sol : list bool) (n : nat) (ls : list (nat * Z)) : Prop :=
  length ls = n /\ NoDup (map fst ls) /\ Forall (fun v => v < nv) (map fst ls) /\
  Forall (fun l => snd l = 1%Z \/ snd l = (-1)%Z) ls /\
  exists v b, In (v, if (b : bool) then 1%Z else (-1)%Z) ls /\ nth_error sol v = Some b.

Lemma draw_clause_ok nv k sol d : 1 <= k -> length sol = nv -> valid_draw nv k d ->
  exists ls, draw_clause nv k sol d = Some ls /\ good_lits nv sol k ls.
Proof.
  intros Hk Ls (H1 & H2 & H3). unfold draw_clause.
  destruct (get_lt sol (d_first d)) as [b Hb]; [lia|]. rewrite Hb. cbn [bind].
  match goal with |- context [foldM ?bd (seq 0 ?n) ?s0] =>
    destruct (for_up_ind 0 n s0 bd (fun i ls => good_lits nv sol (S i) ls)) as (ls & E & G) end.
  - lia.
  - unfold good_lits. cbn. split; [auto|]. split; [repeat constructor; auto|]. split; [repeat constructor; auto|].
    split; [constructor; [destruct b; cbn; auto|constructor]|].
    exists (d_first d), b. split; auto.
  - intros j ls Hj (L & N & F & Sg & v & bv & Hv & Hs).
    destruct (get_lt (d_rest d) j) as [[i s] Hi]; [lia|]. rewrite Hi. cbn [bind].
    pose proof (H3 j i s Hi) as Hlt.
    destruct (get_lt (remaining nv (map fst ls)) i) as [x Hx].
    { rewrite remaining_length, map_length by auto. lia. }
    rewrite Hx. cbn [bind]. eexists; split; [reflexivity|].
    apply nth_error_In, in_remaining in Hx. destruct Hx as [X1 X2].
    unfold good_lits. rewrite app_length, map_app. cbn [length map fst].
    split; [lia|]. split.
    { apply (Permutation_NoDup (Permutation_cons_append _ x)). constructor; auto. }
    split; [apply Forall_app; split; [auto|repeat constructor; auto]|].
    split; [apply Forall_app; split; [auto|constructor; [destruct s; cbn; auto|constructor]]|].
    exists v, bv. split; auto. apply in_or_app; auto.
  - unfold for_up in E. rewrite Nat.sub_0_r in E. rewrite E. exists ls. split; auto.
    replace k with (S (k - 1)) by lia. auto.
Qed.

(** ** adding and removing entries of the variable view *)

Lemma push_all {A B} (key : B -> nat) (val : B -> A) l m n : length m = n ->
  Forall (fun b => key b < n) l ->
  exists m', foldM (fun m b => push m (key b) (val b)) l m = Some m' /\ length m' = n /\
    forall v, v < n -> nth v m' [] = nth v m [] ++ map val (filter (fun b => key b =? v) l).
Proof.
  revert m. induction l as [|b l IH]; intros m L F.
  - exists m. cbn. split; [auto|split; [auto|]]. intros; rewrite app_nil_r; auto.
  - inversion F; subst. cbn [foldM]. unfold push at 1.
    destruct (get_lt m (key b)) as [r Hr]; [lia|]. rewrite Hr. cbn [bind].
    rewrite set_lt by lia. cbn [bind].
    destruct (IH (upd m (key b) (r ++ [val b]))) as (m' & E & L' & N); [apply upd_length| |].
    { auto. }
    rewrite E. exists m'. split; [auto|split; [auto|]]. intros v Hv. rewrite N by auto. cbn [filter].
    destruct (Nat.eqb_spec (key b) v) as [<-|Ne].
    + unfold get in Hr. rewrite (nth_error_nth m _ [] Hr).
      rewrite (nth_error_nth (upd m (key b) (r ++ [val b])) (key b) [] (get_upd_eq _ _ _ Hv)).
      cbn [map]. rewrite <- app_assoc. auto.
    + rewrite P_Tsp_Py.nth_upd_neq by auto. auto.
Qed.

Lemma index_of_last x l : ~ In x l -> index_of x (l ++ [x]) = Some (length l).
Proof.
  induction l as [|a l IH]; intros H; cbn.
  - rewrite Nat.eqb_refl. auto.
  - destruct (Nat.eqb_spec a x) as [->|Ne]; [destruct H; left; auto|].
    rewrite IH by (intros K; apply H; right; auto). auto.
Qed.

Lemma pop_last {A} (l : list A) x : firstn (length l) (l ++ [x]) ++ skipn (S (length l)) (l ++ [x]) = l.
Proof.
  rewrite firstn_app, Nat.sub_diag, firstn_all. cbn [firstn]. rewrite app_nil_r.
  rewrite skipn_all2; [apply app_nil_r|]. rewrite app_length. cbn. lia.
Qed.

Lemma pop_all {A} nv c (vc : list (list nat)) (vt : list (list A)) conn :
  NoDup conn -> Forall (fun v => v < nv) conn -> length vc = nv -> length vt = nv ->
  (forall v, In v conn -> exists o t ot, nth v vc [] = o ++ [c] /\ nth v vt [] = ot ++ [t] /\
                             length o = length ot /\ ~ In c o) ->
  exists vc' vt', foldM (fun st v =>
        let '(vconx, vtypes) := st in
        r <- get vconx v ;;
        j <- index_of c r ;;
        vconx <- pop_at vconx v j ;;
        vtypes <- pop_at vtypes v j ;;
        Some (vconx, vtypes)) conn (vc, vt) = Some (vc', vt') /\ length vc' = nv /\ length vt' = nv /\
    forall v, v < nv -> nth v vc' [] = (if mem v conn then removelast (nth v vc []) else nth v vc []) /\
                        nth v vt' [] = (if mem v conn then removelast (nth v vt []) else nth v vt []).
Proof.
  intros N. revert vc vt. induction N as [|x conn Hx N IH]; intros vc vt F L1 L2 H.
  - exists vc, vt. cbn. auto.
  - inversion F; subst. cbn [foldM].
    destruct (H x) as (o & t & ot & E1 & E2 & Lo & Hc); [left; auto|].
    assert (G1 : get vc x = Some (o ++ [c])) by (rewrite <- E1; apply nth_error_nth'; lia).
    assert (G2 : get vt x = Some (ot ++ [t])) by (rewrite <- E2; apply nth_error_nth'; lia).
    rewrite G1. cbn [bind]. rewrite index_of_last by auto. cbn [bind].
    unfold pop_at at 1. rewrite G1. cbn [bind]. rewrite app_length. cbn [length].
    destruct (Nat.ltb_spec (length o) (length o + 1)); [|lia]. rewrite set_lt by lia. cbn [bind].
    unfold pop_at at 1. rewrite G2. cbn [bind]. rewrite app_length. cbn [length].
    destruct (Nat.ltb_spec (length o) (length ot + 1)); [|lia]. rewrite set_lt by lia. cbn [bind].
    pose proof (pop_last ot t) as Hp. rewrite <- Lo in Hp. rewrite Hp, pop_last.
    destruct (IH (upd vc x o) (upd vt x ot)) as (vc' & vt' & E & K1 & K2 & K); auto.
    + rewrite upd_length; auto.
    + rewrite upd_length; auto.
    + intros v Hv. assert (v <> x) by (intros ->; auto). rewrite !P_Tsp_Py.nth_upd_neq by auto.
      apply H. right; auto.
    + rewrite E. exists vc', vt'. split; [auto|split; [auto|split; [auto|]]].
      intros v Hv. destruct (K v Hv) as [A1 A2]. rewrite A1, A2. cbn [mem existsb].
      fold (mem v conn). destruct (Nat.eqb_spec v x) as [->|Ne]; cbn [orb].
      * rewrite (proj2 (mem_not_In x conn) Hx).
        rewrite !P_Tsp_Py.nth_upd_eq by lia. rewrite E1, E2, !removelast_last. auto.
      * rewrite !P_Tsp_Py.nth_upd_neq by auto. auto.
Qed.

(** ** the invariant of the generator *)

Definition as_formula (g : gen) : formula :=
  {| y_nc := length (g_conx g); y_conx := g_conx g; y_types := g_types g; y_used := g_used g;
     y_vconx := g_vconx g; y_vtypes := g_vtypes g |}.

(** properties of the clauses *)
Record clauses_ok (nv k : nat) (sol : list bool) (f : formula) : Prop := {
  q_size : Forall (fun r => length r = k /\ NoDup r) (y_conx f);
  q_diff : forall c1 c2 r1 r2, c1 <> c2 -> nth_error (y_conx f) c1 = Some r1 ->
             nth_error (y_conx f) c2 = Some r2 -> ~ (forall v, In v r1 <-> In v r2);
  q_planted : forall c, c < y_nc f -> exists v b, nth_error sol v = Some b /\
                in_clause f c v (if (b : bool) then 1%Z else (-1)%Z);
  q_occurs : forall v, In v (y_used f) -> exists c t, in_clause f c v t;
  q_once : forall v, v < nv -> NoDup (nth v (y_vconx f) []) }.

Lemma in_clause_app g used vc vt conn ts c v t :
  length (g_conx g) = length (g_types g) ->
  in_clause (as_formula {| g_conx := g_conx g ++ [conn]; g_types := g_types g ++ [ts]; g_used := used;
                           g_vconx := vc; g_vtypes := vt |}) c v t <->
  in_clause (as_formula g) c v t \/ (c = length (g_conx g) /\ In (v, t) (combine conn ts)).
Proof.
  intros L. unfold in_clause, as_formula, get2. cbn [y_conx y_types g_conx g_types].
  destruct (lt_eq_lt_dec c (length (g_conx g))) as [[Hlt | ->] | Hgt].
  - rewrite (get_app1 (g_conx g)), (get_app1 (g_types g)) by lia. split; [auto|intros [H | [H _]]; [auto|lia]].
  - rewrite (get_app2 (g_conx g)), (get_app2 (g_types g)) by lia. rewrite <- L, !Nat.sub_diag.
    change (get [conn] 0) with (Some conn). change (get [ts] 0) with (Some ts). cbn [bind].
    split.
    + intros (j & H1 & H2). right. split; auto. apply (nth_error_In _ j), nth_error_combine. auto.
    + intros [(j & H1 & H2) | [_ H]].
      * destruct (get (g_conx g) (length (g_conx g))) eqn:E; [apply get_Some_lt in E; lia|discriminate].
      * apply In_nth_error in H. destruct H as [j H]. apply nth_error_combine in H. exists j; auto.
  - split.
    + intros (j & H1 & _). destruct (get (g_conx g ++ [conn]) c) eqn:E; [|discriminate].
      apply get_Some_lt in E. rewrite app_length in E. cbn in E. lia.
    + intros [(j & H1 & _) | [H _]]; [|lia]. destruct (get (g_conx g) c) eqn:E; [|discriminate].
      apply get_Some_lt in E. lia.
Qed.

Lemma get2_nth {A} (m : list (list A)) i j x : i < length m ->
  get2 m i j = Some x <-> nth_error (nth i m []) j = Some x.
Proof.
  intros H. unfold get2, get. rewrite (nth_error_nth' m []) by auto. cbn. tauto.
Qed.

Lemma same_set_iff a b : same_set a b = true <-> (forall v, In v a <-> In v b).
Proof.
  unfold same_set. rewrite Bool.andb_true_iff, !forallb_forall. split.
  - intros [H1 H2] v. split; intros H; [apply mem_In, H1|apply mem_In, H2]; auto.
  - intros H. split; intros x Hx; apply mem_In, H; auto.
Qed.

Lemma combine_fst_snd {A B} (l : list (A * B)) : combine (map fst l) (map snd l) = l.
Proof. induction l as [|[a b] l IH]; cbn; congruence. Qed.

(** the same without the condition that no two clauses have the same variables *)
Record clauses_base (nv k : nat) (sol : list bool) (f : formula) : Prop := {
  b_size : Forall (fun r => length r = k /\ NoDup r) (y_conx f);
  b_planted : forall c, c < y_nc f -> exists v b, nth_error sol v = Some b /\
                in_clause f c v (if (b : bool) then 1%Z else (-1)%Z);
  b_occurs : forall v, In v (y_used f) -> exists c t, in_clause f c v t;
  b_once : forall v, v < nv -> NoDup (nth v (y_vconx f) []) }.
Lemma base_of nv k sol f : clauses_ok nv k sol f -> clauses_base nv k sol f.
Proof. intros []. constructor; auto. Qed.

(** a clause is added *)
Definition with_clause (g : gen) (ls : list (nat * Z)) (vc : list (list nat)) (vt : list (list Z)) : gen :=
  {| g_conx := g_conx g ++ [map fst ls]; g_types := g_types g ++ [map snd ls]; g_used := g_used g ++ map fst ls;
     g_vconx := vc; g_vtypes := vt |}.
Lemma keep_ok nv k sol g ls : good_lits nv sol k ls ->
  consistent nv (as_formula g) -> clauses_base nv k sol (as_formula g) ->
  exists vc vt, foldM (fun m v => push m v (length (g_conx g))) (map fst ls) (g_vconx g) = Some vc /\
    foldM (fun m l => push m (fst l) (snd l)) ls (g_vtypes g) = Some vt /\
    consistent nv (as_formula (with_clause g ls vc vt)) /\ clauses_base nv k sol (as_formula (with_clause g ls vc vt)).
Proof.
  intros (Lk & Nd & Fr & Sg & v0 & b0 & Hv0 & Hb0) W Q.
  pose proof (c_conx _ _ W) as W1. pose proof (c_types _ _ W) as W2. pose proof (c_vconx _ _ W) as W3.
  pose proof (c_vtypes _ _ W) as W4. cbn [as_formula y_nc y_conx y_types y_vconx y_vtypes y_used] in W1, W2, W3, W4.
  set (c := length (g_conx g)) in *.
  destruct (push_all (fun v => v) (fun _ : nat => c) (map fst ls) (g_vconx g) nv W3 Fr) as (vc & Ec & Lc & Nc).
  assert (Fr2 : Forall (fun l : nat * Z => fst l < nv) ls).
  { apply Forall_forall. intros l Hl. apply (proj1 (Forall_forall _ _) Fr). apply in_map; auto. }
  destruct (push_all (@fst nat Z) (@snd nat Z) ls (g_vtypes g) nv W4 Fr2) as (vt & Et & Lt & Nt).
  exists vc, vt. split; [exact Ec|]. split; [exact Et|]. unfold with_clause.
  (* entries of the variable view before the step *)
  assert (Row : forall v, v < nv -> length (nth v (g_vconx g) []) = length (nth v (g_vtypes g) [])).
  { intros v Hv. destruct (c_vrows _ _ W v (nth v (g_vconx g) [])) as (ts & E & L).
    - cbn. apply nth_error_nth'. lia.
    - cbn in E. rewrite (nth_error_nth _ _ _ E). auto. }
  assert (Old : forall v x, v < nv -> In x (nth v (g_vconx g) []) -> x < c).
  { intros v x Hv Hx. apply In_nth_error in Hx. destruct Hx as [j Hj].
    assert (j < length (nth v (g_vconx g) [])) by (apply nth_error_Some; congruence).
    assert (I : in_variable (as_formula g) x v (nth j (nth v (g_vtypes g) []) 0%Z)).
    { exists j. cbn. rewrite !get2_nth by lia. split; auto. apply nth_error_nth'. rewrite <- Row; auto. }
    apply (c_same _ _ W) in I. destruct I as (i & I & _). unfold get2 in I. cbn in I.
    destruct (get (g_conx g) x) eqn:E; [|discriminate]. apply get_Some_lt in E. auto. }
  (* filter on a distinct key *)
  assert (Fil : forall v, v < nv -> (In v (map fst ls) -> exists t, In (v, t) ls /\
       filter (fun l : nat * Z => fst l =? v) ls = [(v, t)] /\ filter (fun x => x =? v) (map fst ls) = [v]) /\
      (~ In v (map fst ls) -> filter (fun l : nat * Z => fst l =? v) ls = [] /\ filter (fun x => x =? v) (map fst ls) = [])).
  { intros v Hv. clear - Nd. induction ls as [|[x t] ls IH]; cbn [map fst] in *.
    - split; [intros []|auto].
    - inversion Nd as [|? ? Hx Nd']; subst. specialize (IH Nd'). destruct IH as [I1 I2]. cbn [filter fst].
      destruct (Nat.eqb_spec x v) as [->|Ne].
      + destruct (I2 Hx) as [-> ->]. split.
        * intros _. exists t. split; [left; auto|auto].
        * intros H. destruct H. left; auto.
      + split.
        * intros [H | H]; [congruence|]. destruct (I1 H) as (t' & A & B & C). exists t'. split; [right; auto|auto].
        * intros H. apply I2. intros K. apply H. right; auto. }
    assert (Lct : length (g_conx g) = length (g_types g)) by (fold c; lia).
    assert (IC : forall c1 v t, in_clause (as_formula {| g_conx := g_conx g ++ [map fst ls];
        g_types := g_types g ++ [map snd ls]; g_used := g_used g ++ map fst ls; g_vconx := vc; g_vtypes := vt |}) c1 v t
        <-> in_clause (as_formula g) c1 v t \/ (c1 = c /\ In (v, t) ls)).
    { intros c1 v t. rewrite in_clause_app by auto. rewrite combine_fst_snd. fold c. tauto. }
    assert (IV : forall c1 v t, in_variable (as_formula {| g_conx := g_conx g ++ [map fst ls];
        g_types := g_types g ++ [map snd ls]; g_used := g_used g ++ map fst ls; g_vconx := vc; g_vtypes := vt |}) c1 v t
        <-> in_variable (as_formula g) c1 v t \/ (c1 = c /\ In (v, t) ls)).
    { intros c1 v t. unfold in_variable. cbn [as_formula y_vconx y_vtypes g_vconx g_vtypes].
      destruct (lt_dec v nv) as [Hv|Hv].
      2:{ split.
          - intros (j & H & _). unfold get2 in H. destruct (get vc v) eqn:E; [|discriminate]. apply get_Some_lt in E. lia.
          - intros [(j & H & _) | [_ H]].
            + unfold get2 in H. destruct (get (g_vconx g) v) eqn:E; [|discriminate]. apply get_Some_lt in E. lia.
            + apply (proj1 (Forall_forall _ _) Fr2) in H. cbn in H. lia. }
      assert (B : forall j, (get2 vc v j = Some c1 <-> nth_error (nth v vc []) j = Some c1) /\
                            (get2 vt v j = Some t <-> nth_error (nth v vt []) j = Some t) /\
                            (get2 (g_vconx g) v j = Some c1 <-> nth_error (nth v (g_vconx g) []) j = Some c1) /\
                            (get2 (g_vtypes g) v j = Some t <-> nth_error (nth v (g_vtypes g) []) j = Some t)).
      { intros j. rewrite !get2_nth by lia. tauto. }
      destruct (in_dec Nat.eq_dec v (map fst ls)) as [M|M].
      - destruct (proj1 (Fil v Hv) M) as (t1 & Ht & F1 & F2).
        pose proof (Nc v Hv) as E1. pose proof (Nt v Hv) as E2. rewrite F2 in E1. rewrite F1 in E2. cbn in E1, E2.
        assert (U : forall t2, In (v, t2) ls -> t2 = t1).
        { intros t2 H. assert (I : In (v, t2) (filter (fun l : nat * Z => fst l =? v) ls)).
          { apply filter_In. cbn. rewrite Nat.eqb_refl. auto. }
          rewrite F1 in I. destruct I as [I | []]. congruence. }
        split.
        + intros (j & H1 & H2). apply (B j) in H1. apply (B j) in H2. rewrite E1 in H1. rewrite E2 in H2.
          destruct (lt_dec j (length (nth v (g_vconx g) []))) as [Hj|Hj].
          * left. exists j. rewrite nth_error_app1 in H1 by auto. rewrite nth_error_app1 in H2 by (rewrite <- Row; auto).
            split; apply (B j); auto.
          * rewrite nth_error_app2 in H1 by lia. rewrite nth_error_app2 in H2 by (rewrite <- Row; auto; lia).
            rewrite <- Row in H2 by auto. right.
            destruct (j - length (nth v (g_vconx g) [])) as [|[|i]]; try discriminate.
            cbn in H1, H2. injection H1 as <-. injection H2 as <-. auto.
        + intros [(j & H1 & H2) | [-> H]].
          * exists j. apply (B j) in H1. apply (B j) in H2.
            split; apply (B j); [rewrite E1|rewrite E2]; rewrite nth_error_app1; auto; apply nth_error_Some; congruence.
          * exists (length (nth v (g_vconx g) [])). rewrite (U _ H) in *.
            split; apply (B _); [rewrite E1|rewrite E2]; rewrite nth_error_app2; rewrite <- ?Row by auto; rewrite ?Nat.sub_diag; auto.
      - destruct (proj2 (Fil v Hv) M) as (F1 & F2).
        pose proof (Nc v Hv) as E1. pose proof (Nt v Hv) as E2. rewrite F2 in E1. rewrite F1 in E2.
        cbn in E1, E2. rewrite app_nil_r in E1, E2. split.
        + intros (j & H1 & H2). left. exists j. apply (B j) in H1. apply (B j) in H2. rewrite E1 in H1. rewrite E2 in H2.
          split; apply (B j); auto.
        + intros [(j & H1 & H2) | [-> H]].
          * exists j. apply (B j) in H1. apply (B j) in H2. split; apply (B j); congruence.
          * destruct M. apply (in_map fst) in H. auto. }
    split.
    + constructor.
      * reflexivity.
      * cbn. rewrite !app_length. cbn. lia.
      * cbn. auto.
      * cbn. auto.
      * cbn [as_formula y_conx y_types g_conx g_types]. intros c1 r H1.
        destruct (lt_dec c1 (length (g_conx g))) as [Hc|Hc].
        -- rewrite nth_error_app1 in H1 by auto. destruct (c_rows _ _ W c1 r H1) as (ts & T1 & T2).
           exists ts. rewrite nth_error_app1 by lia. auto.
        -- rewrite nth_error_app2 in H1 by lia. destruct (c1 - length (g_conx g)) as [|[|i]] eqn:Ei; try discriminate.
           cbn in H1. injection H1 as <-. exists (map snd ls). rewrite nth_error_app2 by lia. rewrite <- Lct, Ei.
           rewrite !map_length. auto.
      * cbn [as_formula y_vconx y_vtypes g_vconx g_vtypes]. intros v r Hr.
        assert (Hv : v < nv) by (rewrite <- Lc; apply nth_error_Some; congruence).
        exists (nth v vt []). split; [apply nth_error_nth'; lia|].
        apply (nth_error_nth _ _ []) in Hr. rewrite <- Hr, Nc, Nt, !app_length, !map_length, Row by auto.
        f_equal. destruct (in_dec Nat.eq_dec v (map fst ls)) as [M|M].
        -- destruct (proj1 (Fil v Hv) M) as (t1 & _ & -> & ->). auto.
        -- destruct (proj2 (Fil v Hv) M) as (-> & ->). auto.
      * intros c1 v t H. apply IC in H. destruct H as [H | [_ H]]; [eapply (c_sign _ _ W); eauto|].
        apply (proj1 (Forall_forall _ _) Sg) in H. auto.
      * cbn. apply Forall_app. split; auto. apply (c_range _ _ W).
      * intros c1 v t H. apply IC in H. cbn. apply in_or_app. destruct H as [H | [_ H]].
        -- left. apply (c_used _ _ W) in H. auto.
        -- right. apply (in_map fst) in H. auto.
      * intros c1 v t. rewrite IC, IV. rewrite (c_same _ _ W). tauto.
    + destruct Q as [Q1 Q3 Q4 Q5]. constructor.
      * cbn. apply Forall_app. split; [auto|]. repeat constructor; auto. rewrite map_length; auto.
      * cbn [as_formula y_nc g_conx]. rewrite app_length. cbn [length]. fold c. intros c1 H1.
        destruct (Nat.eq_dec c1 c) as [->|Ne].
        -- exists v0, b0. split; auto. apply IC. right; auto.
        -- destruct (Q3 c1) as (v & b & A & B); [cbn; fold c; lia|]. exists v, b. split; auto. apply IC. auto.
      * cbn. intros v Hv. apply in_app_iff in Hv. destruct Hv as [Hv | Hv].
        -- destruct (Q4 v Hv) as (c1 & t & H). exists c1, t. apply IC. auto.
        -- apply in_map_iff in Hv. destruct Hv as ((v' & t) & <- & Hv). exists c, t. apply IC. auto.
      * intros v Hv. cbn. rewrite Nc by auto. destruct (in_dec Nat.eq_dec v (map fst ls)) as [M|M].
        -- destruct (proj1 (Fil v Hv) M) as (t1 & _ & _ & ->). cbn.
           apply (Permutation_NoDup (Permutation_cons_append _ c)). constructor; [|apply Q5; auto].
           intros H. apply Old in H; auto. lia.
        -- destruct (proj2 (Fil v Hv) M) as (_ & ->). cbn. rewrite app_nil_r. apply Q5; auto.
Qed.

Lemma gen_step_ok nv k sol g d : 1 <= k -> length sol = nv -> valid_draw nv k d ->
  consistent nv (as_formula g) -> clauses_ok nv k sol (as_formula g) ->
  exists g', gen_step nv k sol g d = Some g' /\
    consistent nv (as_formula g') /\ clauses_ok nv k sol (as_formula g') /\
    length (g_conx g') <= S (length (g_conx g)).
Proof.
  intros Hk Ls Hd W Q. unfold gen_step.
  destruct (draw_clause_ok nv k sol d Hk Ls Hd) as (ls & El & Lk & Nd & Fr & Sg & v0 & b0 & Hv0 & Hb0).
  rewrite El. cbn [bind].
  pose proof (c_conx _ _ W) as W1. pose proof (c_types _ _ W) as W2. pose proof (c_vconx _ _ W) as W3.
  pose proof (c_vtypes _ _ W) as W4. cbn [as_formula y_nc y_conx y_types y_vconx y_vtypes y_used] in W1, W2, W3, W4.
  set (c := length (g_conx g)) in *.
  destruct (push_all (fun v => v) (fun _ : nat => c) (map fst ls) (g_vconx g) nv W3 Fr) as (vc & Ec & Lc & Nc).
  rewrite Ec. cbn [bind].
  assert (Fr2 : Forall (fun l : nat * Z => fst l < nv) ls).
  { apply Forall_forall. intros l Hl. apply (proj1 (Forall_forall _ _) Fr). apply in_map; auto. }
  destruct (push_all (@fst nat Z) (@snd nat Z) ls (g_vtypes g) nv W4 Fr2) as (vt & Et & Lt & Nt).
  rewrite Et. cbn [bind].
  (* entries of the variable view before the step *)
  assert (Row : forall v, v < nv -> length (nth v (g_vconx g) []) = length (nth v (g_vtypes g) [])).
  { intros v Hv. destruct (c_vrows _ _ W v (nth v (g_vconx g) [])) as (ts & E & L).
    - cbn. apply nth_error_nth'. lia.
    - cbn in E. rewrite (nth_error_nth _ _ _ E). auto. }
  assert (Old : forall v x, v < nv -> In x (nth v (g_vconx g) []) -> x < c).
  { intros v x Hv Hx. apply In_nth_error in Hx. destruct Hx as [j Hj].
    assert (j < length (nth v (g_vconx g) [])) by (apply nth_error_Some; congruence).
    assert (I : in_variable (as_formula g) x v (nth j (nth v (g_vtypes g) []) 0%Z)).
    { exists j. cbn. rewrite !get2_nth by lia. split; auto. apply nth_error_nth'. rewrite <- Row; auto. }
    apply (c_same _ _ W) in I. destruct I as (i & I & _). unfold get2 in I. cbn in I.
    destruct (get (g_conx g) x) eqn:E; [|discriminate]. apply get_Some_lt in E. auto. }
  (* filter on a distinct key *)
  assert (Fil : forall v, v < nv -> (In v (map fst ls) -> exists t, In (v, t) ls /\
       filter (fun l : nat * Z => fst l =? v) ls = [(v, t)] /\ filter (fun x => x =? v) (map fst ls) = [v]) /\
      (~ In v (map fst ls) -> filter (fun l : nat * Z => fst l =? v) ls = [] /\ filter (fun x => x =? v) (map fst ls) = [])).
  { intros v Hv. clear - Nd. induction ls as [|[x t] ls IH]; cbn [map fst] in *.
    - split; [intros []|auto].
    - inversion Nd as [|? ? Hx Nd']; subst. specialize (IH Nd'). destruct IH as [I1 I2]. cbn [filter fst].
      destruct (Nat.eqb_spec x v) as [->|Ne].
      + destruct (I2 Hx) as [-> ->]. split.
        * intros _. exists t. split; [left; auto|auto].
        * intros H. destruct H. left; auto.
      + split.
        * intros [H | H]; [congruence|]. destruct (I1 H) as (t' & A & B & C). exists t'. split; [right; auto|auto].
        * intros H. apply I2. intros K. apply H. right; auto. }
  destruct (existsb (fun old => same_set old (map fst ls)) (g_conx g)) eqn:Dup.
  - (* the clause is dropped again *)
    destruct (pop_all nv c vc vt (map fst ls) Nd Fr Lc Lt) as (vc' & vt' & E & L1 & L2 & K).
    { intros v Hv. pose proof (proj1 (Forall_forall _ _) Fr v Hv) as Hlt. cbn in Hlt.
      destruct (proj1 (Fil v Hlt) Hv) as (t & Ht & F1 & F2).
      exists (nth v (g_vconx g) []), t, (nth v (g_vtypes g) []).
      rewrite Nc, Nt, F1, F2 by auto. cbn. split; [auto|split; [auto|split; [auto|]]].
      intros H. apply Old in H; auto. lia. }
    rewrite E. cbn [bind]. eexists; split; [reflexivity|].
    assert (Ev : vc' = g_vconx g).
    { apply (nth_ext _ _ [] []); [lia|]. intros v Hv. rewrite L1 in Hv. destruct (K v Hv) as [K1 _]. rewrite K1.
      destruct (mem v (map fst ls)) eqn:M.
      - apply mem_In in M. destruct (proj1 (Fil v Hv) M) as (t & Ht & F1 & F2). rewrite Nc, F2 by auto. apply removelast_last.
      - apply mem_not_In in M. destruct (proj2 (Fil v Hv) M) as (F1 & F2). rewrite Nc, F2 by auto. apply app_nil_r. }
    assert (Ev2 : vt' = g_vtypes g).
    { apply (nth_ext _ _ [] []); [lia|]. intros v Hv. rewrite L2 in Hv. destruct (K v Hv) as [_ K1]. rewrite K1.
      destruct (mem v (map fst ls)) eqn:M.
      - apply mem_In in M. destruct (proj1 (Fil v Hv) M) as (t & Ht & F1 & F2). rewrite Nt, F1 by auto. apply removelast_last.
      - apply mem_not_In in M. destruct (proj2 (Fil v Hv) M) as (F1 & F2). rewrite Nt, F1 by auto. apply app_nil_r. }
    subst vc' vt'.
    apply existsb_exists in Dup. destruct Dup as (old & Hold & Ss). rewrite same_set_iff in Ss.
    split; [|split].
    + constructor; try apply W; cbn [as_formula y_used g_used].
      * apply Forall_app. split; auto. apply (c_range _ _ W).
      * intros c1 v1 t1 H1. apply in_or_app. left. apply (c_used _ _ W c1 v1 t1 H1).
    + constructor; try apply Q. cbn [as_formula y_used g_used]. intros v Hv. apply in_app_iff in Hv.
      destruct Hv as [Hv | Hv]; [apply (q_occurs _ _ _ _ Q); auto|].
      apply Ss in Hv. apply In_nth_error in Hold. destruct Hold as [c1 Hc1]. apply In_nth_error in Hv. destruct Hv as [j Hj].
      destruct (c_rows _ _ W c1 old Hc1) as (ts & E1 & E2).
      destruct (nth_error ts j) as [t|] eqn:Ej.
      2:{ apply nth_error_None in Ej. assert (j < length old) by (apply nth_error_Some; congruence). lia. }
      exists c1, t. exists j. unfold get2, get. cbn in *. rewrite Hc1, E1. auto.
    + cbn. fold c. lia.
  - (* the clause is new *)
    eexists; split; [reflexivity|].
    destruct (keep_ok nv k sol g ls (conj Lk (conj Nd (conj Fr (conj Sg (ex_intro _ v0 (ex_intro _ b0 (conj Hv0 Hb0))))))) W (base_of _ _ _ _ Q))
      as (vc' & vt' & Ec' & Et' & W' & B').
    fold c in Ec'. rewrite Ec in Ec'. rewrite Et in Et'. injection Ec' as <-. injection Et' as <-. unfold with_clause in W', B'.
    split; [exact W'|split].
    + destruct B' as [Q1' Q3' Q4' Q5']. pose proof (q_diff _ _ _ _ Q) as Q2. constructor; auto.
      cbn [as_formula y_conx g_conx]. intros c1 c2 r1 r2 Ne H1 H2 Same.
        assert (D : forall c1 r1, nth_error (g_conx g) c1 = Some r1 -> ~ (forall v, In v r1 <-> In v (map fst ls))).
        { intros c3 r3 H3 S3. rewrite <- Bool.not_true_iff_false in Dup. apply Dup. apply existsb_exists.
          exists r3. split; [eapply nth_error_In; eauto|apply same_set_iff; auto]. }
        assert (Sp : forall c3 r3, nth_error (g_conx g ++ [map fst ls]) c3 = Some r3 ->
           nth_error (g_conx g) c3 = Some r3 \/ (c3 = c /\ r3 = map fst ls)).
        { intros c3 r3 H3. destruct (lt_dec c3 c) as [Hc|Hc].
          - rewrite nth_error_app1 in H3 by auto. auto.
          - rewrite nth_error_app2 in H3 by (fold c; lia). fold c in H3. destruct (c3 - c) as [|[|i]] eqn:Ei; try discriminate.
            cbn in H3. injection H3 as <-. right. split; [lia|auto]. }
        apply Sp in H1. apply Sp in H2. destruct H1 as [H1 | [-> ->]]; destruct H2 as [H2 | [-> ->]].
        -- eapply Q2; eauto.
        -- eapply D; eauto.
        -- eapply D; eauto. intros v. symmetry. apply Same.
        -- auto.
    + cbn. rewrite app_length. cbn. fold c. lia.
Qed.

Lemma gen_start nv k sol : let g := {| g_conx := []; g_types := []; g_used := []; g_vconx := repeat [] nv; g_vtypes := repeat [] nv |} in
  consistent nv (as_formula g) /\ clauses_ok nv k sol (as_formula g).
Proof.
  assert (N : forall A v, nth v (repeat (@nil A) nv) [] = []).
  { intros A v. apply nth_repeat. }
  assert (IC : forall c v t, ~ in_clause (as_formula {| g_conx := []; g_types := []; g_used := [];
      g_vconx := repeat [] nv; g_vtypes := repeat [] nv |}) c v t).
  { intros c v t (j & H & _). unfold get2 in H. cbn in H. destruct c; discriminate. }
  assert (IV : forall c v t, ~ in_variable (as_formula {| g_conx := []; g_types := []; g_used := [];
      g_vconx := repeat [] nv; g_vtypes := repeat [] nv |}) c v t).
  { intros c v t (j & H & _). cbn in H. unfold get2 in H.
    destruct (get (repeat [] nv) v) as [r|] eqn:E; [|discriminate]. cbn in H.
    apply (nth_error_nth _ _ []) in E. rewrite N in E. subst r. destruct j; discriminate. }
  cbn zeta. split; constructor; cbn [as_formula y_nc y_conx y_types y_vconx y_vtypes y_used g_conx g_types g_used g_vconx g_vtypes].
  - auto.
  - auto.
  - apply repeat_length.
  - apply repeat_length.
  - intros [|c] r H; discriminate.
  - intros v r H. exists []. assert (v < nv). { rewrite <- (repeat_length (@nil nat) nv). apply nth_error_Some. congruence. }
    split; [rewrite (nth_error_nth' _ []) by (rewrite repeat_length; auto); rewrite N; auto|].
    apply (nth_error_nth _ _ []) in H. rewrite N in H. subst r. auto.
  - intros c v t H. destruct (IC _ _ _ H).
  - constructor.
  - intros c v t H. destruct (IC _ _ _ H).
  - intros c v t. split; intros H; [destruct (IC _ _ _ H)|destruct (IV _ _ _ H)].
  - constructor.
  - intros [|c1] c2 r1 r2 _ H; discriminate.
  - cbn. lia.
  - intros v [].
  - intros v _. rewrite N. constructor.
Qed.

Lemma create_formula_ok nv k sol ord draws : 1 <= k -> length sol = nv ->
  Forall (valid_draw nv k) draws -> (forall l, Permutation l (ord l)) ->
  exists f, create_formula nv k sol ord draws = Some f /\ consistent nv f /\ clauses_ok nv k sol f /\
    NoDup (y_used f) /\ y_nc f <= length draws.
Proof.
  intros Hk Ls Hd P. unfold create_formula.
  assert (G : forall draws g, Forall (valid_draw nv k) draws -> consistent nv (as_formula g) ->
      clauses_ok nv k sol (as_formula g) ->
      exists g', foldM (gen_step nv k sol) draws g = Some g' /\ consistent nv (as_formula g') /\
        clauses_ok nv k sol (as_formula g') /\ length (g_conx g') <= length draws + length (g_conx g)).
  { clear draws Hd. induction draws as [|d l IH]; intros g F W Q.
    - exists g. split; [reflexivity|split; [auto|split; [auto|cbn; lia]]].
    - inversion F; subst. destruct (gen_step_ok (length sol) k sol g d) as (g1 & E & W1 & Q1 & L1); auto.
      cbn [foldM]. rewrite E. cbn [bind]. destruct (IH g1) as (g2 & E2 & W2 & Q2 & L2); auto.
      exists g2. split; [auto|split; [auto|split; [auto|cbn; lia]]]. }
  destruct (gen_start nv k sol) as [W0 Q0].
  destruct (G draws _ Hd W0 Q0) as (g & E & W & Q & L). rewrite E. cbn [bind]. cbn in L.
  eexists; split; [reflexivity|].
  assert (U : forall v, In v (ord (dedup (g_used g))) <-> In v (g_used g)).
  { intros v. transitivity (In v (dedup (g_used g))); [|apply nodup_In]. split; intros H.
    - apply (Permutation_in _ (Permutation_sym (P _))). auto.
    - apply (Permutation_in _ (P _)). auto. }
  split; [|split; [|split]].
  - constructor; try apply W; cbn [y_used].
    + apply Forall_forall. intros v Hv. apply U in Hv.
      apply (proj1 (Forall_forall _ _) (c_range _ _ W)). auto.
    + intros c v t H. apply U. apply (c_used _ _ W c v t H).
  - constructor; try apply Q. cbn [y_used]. intros v Hv. apply U in Hv. apply (q_occurs _ _ _ _ Q); auto.
  - cbn. apply (Permutation_NoDup (P _)). apply NoDup_nodup.
  - cbn. lia.
Qed.

(** ** initial messages and the intrinsic vector *)

Lemma initial_messages_ok nv f (metrics : list Qc) : consistent nv f -> length metrics = nv ->
  exists M, initial_messages nv f (map Fin metrics) = Some (inj M) /\ shape (y_nc f) nv M /\
    forall c v, c < y_nc f -> v < nv ->
      qat M c v = if mem v (nth c (y_conx f) []) then nth v metrics 0%Qc else 0%Qc.
Proof.
  intros W Lm. unfold initial_messages. rewrite (c_conx _ _ W).
  set (nc := y_nc f).
  set (val := fun c v => if mem v (nth c (y_conx f) []) then nth v metrics 0%Qc else 0%Qc).
  match goal with |- context [for_up 0 ?k0 ?st0 ?bd] =>
    destruct (for_up_ind 0 k0 st0 bd (fun i m => shape nc nv m /\ forall c v, c < nc -> v < nv ->
      get2 m c v = Some (Fin (if c <? i then val c v else 0%Qc)))) as (m & E & S & G) end.
  - lia.
  - split; [apply shape_repeat|]. intros c v Hc Hv. rewrite get2_repeat by auto. auto.
  - intros i m Hi [S G]. destruct (row_at nv f i W) as (r & Er & Fr); [fold nc; lia|].
    unfold get. rewrite Er. cbn [bind].
    match goal with |- context [foldM ?bd ?l0 ?st0] =>
      destruct (foldM_ind bd (fun done m => shape nc nv m /\ forall c v, c < nc -> v < nv ->
        get2 m c v = Some (Fin (if c <? i then val c v else if (c =? i) && mem v done then nth v metrics 0%Qc else 0%Qc))) l0 st0)
      as (m' & E' & S' & G') end.
    + split; auto. intros c v Hc Hv. rewrite G by auto. cbn [mem existsb]. rewrite Bool.andb_false_r. auto.
    + intros done v rest m1 Hl [S1 G1].
      assert (Hv : v < nv). { apply (proj1 (Forall_forall _ _) Fr). rewrite Hl. apply in_or_app. right; left; auto. }
      unfold get. rewrite nth_error_map, (nth_error_nth' metrics 0%Qc) by lia. cbn [option_map bind].
      rewrite (set2_lt nc nv) by (auto; lia). eexists; split; [reflexivity|]. split; [apply shape_upd2; auto|].
      intros c v' Hc Hv'. rewrite (get2_upd2 nc nv) by (auto; lia).
      assert (Mm : mem v' (done ++ [v]) = mem v' done || (v' =? v)).
      { unfold mem. rewrite existsb_app. cbn [existsb]. rewrite Bool.orb_false_r. auto. }
      rewrite Mm. destruct (Nat.eqb_spec i c) as [<-|Ni]; cbn [andb].
      * rewrite Nat.ltb_irrefl, Nat.eqb_refl. cbn [andb]. rewrite (Nat.eqb_sym v' v).
        destruct (Nat.eqb_spec v v') as [<-|Nv].
        -- rewrite Bool.orb_true_r. auto.
        -- rewrite Bool.orb_false_r. rewrite G1 by auto. rewrite Nat.ltb_irrefl, Nat.eqb_refl. auto.
      * rewrite G1 by auto. destruct (Nat.eqb_spec c i); [lia|]. auto.
    + exists m'. split; [exact E'|]. split; auto. intros c v Hc Hv. rewrite G' by auto.
      do 2 f_equal. unfold val. destruct (Nat.eqb_spec c i) as [->|Ne].
      * rewrite Nat.ltb_irrefl. destruct (Nat.ltb_spec i (i + 1)); [|lia]. cbn [andb].
        rewrite (nth_error_nth _ _ _ Er). auto.
      * cbn [andb]. destruct (Nat.ltb_spec c i), (Nat.ltb_spec c (i + 1)); auto; lia.
  - rewrite E. destruct (P_Equality.fin_mat nc nv m S) as (M & SM & ->).
    { intros c v Hc Hv. rewrite G by auto. eauto. }
    exists M. split; [auto|split; [auto|]]. intros c v Hc Hv. specialize (G c v Hc Hv).
    rewrite (P_Tsp_Constraints.get2_inj nc nv) in G by auto. injection G as G. rewrite G.
    destruct (Nat.ltb_spec c nc); [auto|lia].
Qed.

Lemma intrinsic_ok nv f (metrics ext : list Qc) : consistent nv f -> NoDup (y_used f) ->
  length metrics = nv -> length ext = nv ->
  exists l, py_ksat_intrinsic f (map Fin metrics) (map Fin ext) = Some (map Fin l) /\ length l = nv /\
    forall v, v < nv -> nth v l 0%Qc = (nth v ext 0 + (if mem v (y_used f) then nth v metrics 0 else 0))%Qc.
Proof.
  intros W N Lm Le. unfold py_ksat_intrinsic. rewrite map_length, Le.
  match goal with |- context [foldM ?bd ?l0 ?st0] =>
    destruct (foldM_ind bd (fun done u => exists q, u = map Fin q /\ length q = nv /\
        forall v, v < nv -> nth v q 0%Qc = if mem v done then nth v metrics 0%Qc else 0%Qc) l0 st0)
    as (u & E & q & -> & Lq & Hq) end.
  - exists (repeat 0%Qc nv). split; [|split; [apply repeat_length|]].
    + clear. unfold n0. induction nv; cbn; [auto|]. f_equal. auto.
    + intros v Hv. rewrite nth_repeat. auto.
  - intros done v rest u Hl (q & -> & Lq & Hq).
    assert (Hv : v < nv). { apply (proj1 (Forall_forall _ _) (c_range _ _ W)). rewrite Hl. apply in_or_app. right; left; auto. }
    unfold get. rewrite nth_error_map, (nth_error_nth' metrics 0%Qc) by lia. cbn [option_map bind].
    rewrite set_lt by (rewrite map_length; lia). eexists; split; [reflexivity|].
    exists (upd q v (nth v metrics 0%Qc)). rewrite <- P_Tsp_Py.map_upd. split; [auto|]. split; [rewrite upd_length; auto|].
    intros v' Hv'. unfold mem. rewrite existsb_app. cbn [existsb]. rewrite Bool.orb_false_r. fold (mem v' done).
    destruct (Nat.eqb_spec v' v) as [->|Ne].
    + rewrite P_Tsp_Py.nth_upd_eq by lia. rewrite Bool.orb_true_r. auto.
    + rewrite P_Tsp_Py.nth_upd_neq by auto. rewrite Bool.orb_false_r. auto.
  - rewrite E. cbn [bind]. exists (zip_with Qcplus ext q). split; [|split].
    + f_equal. unfold zip_with. rewrite map_map. clear - Le Lq.
      revert q nv Le Lq. induction ext as [|a ext IH]; intros [|b q] nv Le Lq; cbn in *; auto; subst; try discriminate.
      f_equal. eapply IH; eauto.
    + rewrite zip_with_length. lia.
    + intros v Hv. assert (Gz : get (zip_with Qcplus ext q) v = Some (nth v ext 0 + nth v q 0)%Qc).
      { apply (get_zip_with Qcplus ext q v); apply nth_error_nth'; lia. }
      unfold get in Gz. rewrite (nth_error_nth _ _ _ Gz), Hq by auto. auto.
Qed.
