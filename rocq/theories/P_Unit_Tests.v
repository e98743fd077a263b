(** * Proofs: the unit tests of single steps. *)
From Coq Require Import Permutation.
From Verif Require Import NumFacts Arr ArrFacts Spec SpecGraph MinSum M_InOut M_PyRef M_Tsp_Run M_Tsp_Py M_Ksat_Py M_Instances
  M_Test_Check M_Unit_Tests P_Tsp_Constraints P_Kc_Trellis P_Equality P_InOut P_PyRef P_Tsp_Fin P_Tsp_Py P_Ksat_Py P_Ksat_Gen
  P_Runs T_Instances T_Test_Check.
From Verif Require Import Num.
Local Open Scope nat_scope.

(** ** Comparison of an array with itself *)
Lemma np_max_repeat z n : np_maximum z z = z -> np_max (repeat z (S n)) = Some z.
Proof.
  intros H. cbn [repeat np_max]. f_equal. induction n as [|n IH]; [reflexivity|]. cbn [repeat fold_left]. now rewrite H.
Qed.
Lemma sub_self q : nsub (Fin q) (Fin q) = n0.
Proof. unfold nsub. cbn. unfold n0. f_equal. qlra. Qed.
Lemma same_passes rtol atol y : y <> [] -> (0 <= rtol)%Qc -> (0 <= atol)%Qc ->
  check_agreement (Fin rtol) (Fin atol) y y = Some true.
Proof.
  intros Ne Hr Ha.
  assert (F : (exists q, y = map Fin q) \/ exists i a, get y i = Some a /\ (a = NaN \/ a = PInf \/ a = NInf)).
  { clear. induction y as [|a y IH].
    - left. now exists [].
    - destruct IH as [(q & ->)|(i & b & G & H)]; [|right; exists (S i), b; auto].
      destruct a as [x| | |]; [left; now exists (x :: q)|right; exists 0; eexists; split; [reflexivity|auto]..]. }
  destruct F as [(q & ->)|(i & a & G & H)].
  - unfold check_agreement. rewrite Nat.eqb_refl. cbn [negb]. rewrite sub_same by reflexivity. cbn [bind].
    assert (D : map nabs (zip_with nsub (map Fin q) (map Fin q)) = repeat n0 (length q)).
    { clear. induction q as [|x q IH]; [reflexivity|]. cbn [map zip_with combine length repeat]. f_equal; [|exact IH].
      cbn [fst snd]. rewrite sub_self. reflexivity. }
    rewrite D. destruct q as [|x q]; [cbn in Ne; congruence|]. cbn [length].
    rewrite np_max_repeat by reflexivity. cbn [bind].
    destruct (np_max_fin (x :: q)) as (m & -> & _); [discriminate|]. cbn [bind].
    rewrite map_repeat.
    assert (Z : np_div n0 (nabs (nadd (Fin m) tiny)) = n0 \/ np_div n0 (nabs (nadd (Fin m) tiny)) = NaN).
    { unfold tiny. cbn [nadd]. rewrite abs_fin. unfold np_div, n0 at 1 4. destruct (neqb _ _).
      - right. reflexivity.
      - left. unfold n0. f_equal. unfold Qcdiv. apply Qcmult_0_l. }
    destruct Z as [->| ->].
    + rewrite np_max_repeat by reflexivity. cbn [bind]. f_equal.
      assert (N : forall t, (0 <= t)%Qc -> ngt n0 (Fin t) = false).
      { intros t Ht. unfold ngt, nlt, n0. destruct (qltb_spec t 0); [exfalso; qlra|reflexivity]. }
      now rewrite !N.
    + rewrite np_max_repeat by reflexivity. cbn [bind]. f_equal.
      assert (N : forall t, (0 <= t)%Qc -> ngt n0 (Fin t) = false).
      { intros t Ht. unfold ngt, nlt, n0. destruct (qltb_spec t 0); [exfalso; qlra|reflexivity]. }
      rewrite N by auto. reflexivity.
  - apply (C87_nan _ _ y y i a a); auto. destruct H as [->|[->| ->]]; auto.
Qed.

(** ** keep_only *)
Lemma keep_only_ok n c k rows M : shape n c M -> length rows = n -> k <= c ->
  exists M', keep_only k rows (inj M) = Some (inj M') /\ shape n c M' /\
    forall i j, i < n -> j < c ->
      qat M' i j = if (j <? k) && negb (mem j (nth i rows [])) then 0%Qc else qat M i j.
Proof.
  intros SM Lr Hk. unfold keep_only.
  match goal with |- context [for_up 0 ?k0 ?st0 ?bd] =>
    destruct (for_up_ind 0 k0 st0 bd (fun r st => exists M', st = inj M' /\ shape n c M' /\
      forall i j, i < n -> j < c ->
        qat M' i j = if (i <? r) && ((j <? k) && negb (mem j (nth i rows []))) then 0%Qc else qat M i j)) as (st & Es & Hs) end.
  - lia.
  - exists M. split; auto.
  - intros r st Hr (M1 & -> & S1 & Q1). destruct (get_lt rows r) as (row & G); [lia|]. rewrite G. cbn [bind].
    assert (Nr : nth r rows [] = row) by (apply nth_error_nth; exact G).
    match goal with |- context [for_up 0 ?k0 ?st0 ?bd] =>
      destruct (for_up_ind 0 k0 st0 bd (fun b st => exists M', st = inj M' /\ shape n c M' /\
        forall i j, i < n -> j < c ->
          qat M' i j = if (i =? r) && ((j <? b) && negb (mem j row)) then 0%Qc else qat M1 i j)) as (st2 & Es2 & M2 & -> & S2 & Q2) end.
    + lia.
    + exists M1. split; auto. split; auto. intros i j _ _. cbn. now rewrite andb_false_r.
    + intros b st Hb (M2 & -> & S2 & Q2). destruct (mem b row) eqn:Mb.
      * eexists. split; [reflexivity|]. exists M2. split; auto. split; auto. intros i j Hi Hj. rewrite Q2 by auto.
        destruct (Nat.eqb_spec j b) as [->|Nj]; [rewrite Mb; cbn; now rewrite !andb_false_r|].
        replace (j <? b + 1) with (j <? b); [reflexivity|].
        destruct (Nat.ltb_spec j b), (Nat.ltb_spec j (b + 1)); auto; lia.
      * assert (SI : shape n c (inj M2)) by (apply shape_inj; exact S2).
        rewrite (set2_lt n c) by (auto; lia).
        destruct (fin_mat n c (upd2 (inj M2) r b n0)) as (M3 & S3 & E3).
        { apply shape_upd2; exact SI. }
        { intros i j Hi Hj. rewrite (get2_upd2 n c) by (auto; lia). destruct (_ && _); [exists 0%Qc; reflexivity|].
          rewrite (get2_inj n c) by auto. eauto. }
        eexists. split; [reflexivity|]. exists M3. split; auto. split; auto. intros i j Hi Hj.
        assert (Q : get2 (inj M3) i j = Some (Fin (qat M3 i j))) by (apply (get2_inj n c); auto).
        rewrite <- E3, (get2_upd2 n c), (get2_inj n c), Q2 in Q by (auto; lia).
        destruct (Nat.eqb_spec r i) as [<-|Ni].
        -- rewrite Nat.eqb_refl in *. cbn [andb] in *. destruct (Nat.eqb_spec b j) as [<-|Nj].
           ++ replace (b <? b + 1) with true by (symmetry; apply Nat.ltb_lt; lia). rewrite Mb. cbn in *. unfold n0 in Q. congruence.
           ++ replace (j <? b + 1) with (j <? b); [congruence|].
              destruct (Nat.ltb_spec j b), (Nat.ltb_spec j (b + 1)); auto; lia.
        -- destruct (Nat.eqb_spec i r); [congruence|]. cbn [andb] in *. congruence.
    + rewrite Es2. eexists. split; [reflexivity|]. exists M2. split; auto. split; auto. intros i j Hi Hj.
      rewrite Q2, Q1 by auto. destruct (Nat.eqb_spec i r) as [->|Ni].
      * rewrite Nr. replace (r <? r + 1) with true by (symmetry; apply Nat.ltb_lt; lia).
        replace (r <? r) with false by (symmetry; apply Nat.ltb_ge; lia). reflexivity.
      * cbn [andb]. replace (i <? r + 1) with (i <? r); [reflexivity|].
        destruct (Nat.ltb_spec i r), (Nat.ltb_spec i (r + 1)); auto; lia.
  - destruct Hs as (M' & -> & S' & Q'). rewrite Es. exists M'. split; auto. split; auto.
    intros i j Hi Hj. rewrite Q' by auto. replace (i <? length rows) with true by (symmetry; apply Nat.ltb_lt; lia). reflexivity.
Qed.

(** ** Reading files *)
Lemma read_edges_ok e E : length E = e -> read_edges e (flat_edges E) = Some E.
Proof.
  intros <-. unfold read_edges.
  assert (Ef : flat_edges E = concat (edge_rows E)) by apply flat_map_concat_map.
  rewrite Ef, (read_rows_ok 0 (length E) 2).
  2:{ split; [apply map_length|]. apply Forall_map, Forall_forall. auto. }
  cbn [bind]. clear Ef. unfold edge_rows. induction E as [|[a b] E IH]; cbn; auto. cbn in IH. rewrite IH. reflexivity.
Qed.
Lemma read_cuts_ok cuts : read_cuts (length cuts) (map (@length nat) cuts) (concat cuts) = Some cuts.
Proof.
  unfold read_cuts.
  match goal with |- context [for_up 0 ?k0 ?st0 ?bd] =>
    destruct (for_up_ind 0 k0 st0 bd (fun k st => st = (firstn k cuts, length (concat (firstn k cuts))))) as (st & Es & Hs) end.
  - lia.
  - reflexivity.
  - intros k st Hk ->. destruct (get_lt cuts k) as (cut & G); [lia|].
    unfold get at 1. rewrite (map_nth_error _ _ _ G). cbn [bind].
    assert (Sp : cuts = firstn k cuts ++ cut :: skipn (k + 1) cuts).
    { rewrite <- (firstn_skipn k cuts) at 1. f_equal. clear -G. revert k G. induction cuts as [|x l IH]; intros [|k] G; cbn in *; try discriminate.
      - now injection G as ->.
      - now apply IH. }
    assert (F1 : firstn (k + 1) cuts = firstn k cuts ++ [cut]).
    { clear -G. revert k G. induction cuts as [|x l IH]; intros [|k] G; cbn in *; try discriminate.
      - injection G as ->. reflexivity.
      - f_equal. now apply IH. }
    assert (Sl : slice (concat cuts) (length (concat (firstn k cuts))) (length (concat (firstn k cuts)) + length cut) = Some cut).
    { rewrite Sp at 1. rewrite concat_app. cbn [concat]. set (A := concat (firstn k cuts)). set (B := concat (skipn (k + 1) cuts)).
      unfold slice. rewrite !app_length.
      replace (length A <=? length A + length cut) with true by (symmetry; apply Nat.leb_le; lia).
      replace (length A + length cut <=? length A + (length cut + length B)) with true by (symmetry; apply Nat.leb_le; lia).
      cbn [andb]. f_equal. rewrite skipn_app, skipn_all, Nat.sub_diag. cbn [app skipn].
      replace (length A + length cut - length A) with (length cut) by lia.
      rewrite firstn_app, Nat.sub_diag, firstn_all. cbn. apply app_nil_r. }
    rewrite Sl. cbn [bind]. eexists. split; [reflexivity|].
    rewrite F1, concat_app, app_length. cbn [concat]. now rewrite app_nil_r.
  - rewrite Es, Hs, firstn_all. reflexivity.
Qed.

(** ** The graph of the travelling salesperson tests *)
Lemma tsp_graph_ok n symmetric U : shape n n U -> (forall i j, i < n -> j < n -> qat U i j <> 0%Qc) ->
  exists C c M, create_cost_matrix symmetric (inj U) = (inj C, all_pairs n) /\
    ut_tsp_graph n symmetric (inj U) = Some (all_pairs n, map Fin c, inj M) /\
    complete n (all_pairs n) /\ length (all_pairs n) = py_num_edges n /\
    length c = py_num_edges n /\ shape (py_num_edges n) n M /\ off_edge_zero (all_pairs n) n M.
Proof.
  intros SU Nz. destruct (C67_tsp_matrix n symmetric U SU Nz) as (C & E & Ok & _).
  assert (Co : complete n (all_pairs n)) by (rewrite <- (edges_all_pairs n C Ok); now apply py_edges_complete).
  pose proof (complete_length _ _ Co) as L.
  destruct (py_arrays_ok n C (all_pairs n)) as (c & M & A & Lc & SM & _ & Q).
  - apply Ok.
  - exact (complete_edges_in n _ Co).
  - exact (complete_no_self n _ Co).
  - exact L.
  - exists C, c, M. split; auto. unfold ut_tsp_graph. rewrite E, A. split; [reflexivity|].
    unfold py_num_edges in *. rewrite L in *. repeat (split; [solve [auto]|]).
    intros e u v w G Hw Nu Nv. rewrite (Q e u v w G Hw).
    destruct (Nat.eqb_spec w u), (Nat.eqb_spec w v); cbn; congruence.
Qed.
Lemma keep_ends n E M : shape (length E) n M -> edges_in n E ->
  exists M', keep_only n (edge_rows E) (inj M) = Some (inj M') /\ shape (length E) n M' /\ off_edge_zero E n M'.
Proof.
  intros SM HE. destruct (keep_only_ok (length E) n n (edge_rows E) M) as (M' & K & S' & Q); auto.
  { apply map_length. }
  exists M'. split; auto. split; auto. intros e u v w G Hw Nu Nv.
  assert (He : e < length E) by (apply nth_error_Some; unfold get in G; congruence).
  rewrite Q by auto. unfold edge_rows.
  erewrite nth_error_nth by (apply map_nth_error; exact G). cbn [fst snd].
  replace (w <? n) with true by (symmetry; apply Nat.ltb_lt; auto).
  destruct (mem w [u; v]) eqn:Mw; [|reflexivity]. apply mem_In in Mw. destruct Mw as [?|[?|[]]]; congruence.
Qed.
Lemma np_zeros_shape n k : shape n k (np_zeros n k).
Proof. unfold np_zeros. apply shape_repeat. Qed.
