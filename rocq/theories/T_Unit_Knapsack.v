(** * C90: the unit tests of the knapsack steps pass whatever is drawn. *)
From Coq Require Import Permutation.
From Verif Require Import NumFacts Arr ArrFacts Spec SpecKc MinSum MinSumFacts M_InOut M_Filter M_Knapsack M_PyRef M_PyRef_Kc M_Kc_Py M_Test_Check
  M_Unit_Tests M_Unit_Knapsack P_Tsp_Constraints P_Kc_Trellis P_Filter P_Knapsack P_Equality P_InOut P_PyRef P_PyRef_Kc P_Runs
  P_Unit_Tests P_Unit_Knapsack P_Kc_Gen P_Unit_Gen T_PyRef T_Test_Check T_Unit_Tests.
From Verif Require Import Num.
Local Open Scope nat_scope.

(** The programs store the same array for every department, of the sizes [lens], and the comparison succeeds for
    all tolerances below 1 and in whatever order the files are listed. *)
Definition tables_pass (lens : list nat) (r : option (list files)) : Prop :=
  exists ys, r = Some (map (fun y => (y, y)) ys) /\ map (@length num) ys = lens /\
    forall rtol atol listing, (0 <= rtol)%Qc /\ (rtol < 1)%Qc -> (0 <= atol)%Qc /\ (atol < 1)%Qc -> Permutation ys listing ->
      check_forward_backward_results (Fin rtol) (Fin atol) (map (fun y => (y, y)) listing) = Some true.

(** an array of numbers and infinities with a number that is not negative *)
Lemma plain_entries y : Forall plain y -> exists u, y = map entry u.
Proof.
  induction 1 as [|x y [->|(q & ->)] _ (u & ->)]; [now exists []|exists (None :: u)|exists (Some q :: u)]; reflexivity.
Qed.
Lemma numbers_in u q : In (Fin q) (map entry u) <-> In q (numbers u).
Proof.
  unfold numbers. induction u as [|[a|] u IH]; cbn; [tauto| |].
  - rewrite IH. split; (intros [H|H]; [left|right; auto]); congruence.
  - rewrite IH. split; [intros [H|H]; [discriminate|auto]|auto].
Qed.
Lemma tables_pass_intro lens ys : ys <> [] -> Forall (fun y => Forall plain y /\ In n0 y) ys -> map (@length num) ys = lens ->
  tables_pass lens (Some (map (fun y => (y, y)) ys)).
Proof.
  intros NE F L. exists ys. split; [reflexivity|]. split; [exact L|]. intros rtol atol listing Hr Ha P.
  assert (F' : Forall (fun y => Forall plain y /\ In n0 y) listing).
  { rewrite Forall_forall in *. intros y I. apply F. eapply Permutation_in; [apply Permutation_sym; exact P|exact I]. }
  assert (exists us, listing = map (map entry) us) as (us & ->).
  { clear -F'. induction F' as [|y l (H & _) _ (us & ->)]; [now exists []|]. destruct (plain_entries y H) as (u & ->).
    now exists (u :: us). }
  assert (NE' : us <> []).
  { intros ->. apply NE. apply Permutation_nil. apply Permutation_sym. exact P. }
  destruct (C87_passes_verdict rtol atol Hr Ha (map (fun u => (u, u)) us)) as (b & E & H).
  - destruct us; [congruence|discriminate].
  - apply Forall_map. apply Forall_forall. intros u I. rewrite Forall_forall in F'.
    destruct (F' (map entry u)) as (_ & I0); [now apply in_map|]. apply numbers_in in I0.
    split; [reflexivity|]. split; [reflexivity|]. cbn [fst]. split; [intros X; rewrite X in I0; destruct I0|].
    intros m (_ & Lm). specialize (Lm _ I0). unfold tinyq in *. intros X.
    assert (Z : (0 < Q2Qc (1 # 10 ^ 30))%Qc) by (unfold Qclt; vm_compute; reflexivity). qlra.
  - rewrite map_map in *. cbn [fst snd] in *.
    assert (b = true) as <-. { apply H. apply Forall_map, Forall_forall. intros u _. reflexivity. }
    exact E.
Qed.

Section Knapsack.
Variables (D T : nat) (W : list (list nat)) (reward : list Qc).
Hypotheses (HD : D <> 0) (SW : shape D T W) (LR : length reward = T).
Local Notation ws d := (nth d W []).
(** a department has a team that needs room in it *)
Hypothesis Some_team : forall d, d < D -> exists t, t < T /\ nth t (ws d) 0 <> 0.

Definition team_msgs : list (list Qc) :=
  map (fun row => map (fun j => if negb (nth j row 0 =? 0) then nth j reward 0%Qc else 0%Qc) (seq 0 (length row))) W.
Local Notation ms d := (nth d team_msgs []).
Lemma team_msgs_inj : py_team_messages W (map Fin reward) = inj team_msgs.
Proof.
  unfold py_team_messages, team_msgs, inj. rewrite map_map. apply map_ext. intros row. rewrite map_map. apply map_ext. intros j.
  destruct (negb _); [|reflexivity]. change n0 with (Fin 0%Qc). apply map_nth.
Qed.
Lemma team_msgs_shape : shape D T team_msgs.
Proof.
  destruct SW as (L & F). split; [unfold team_msgs; now rewrite map_length|]. unfold team_msgs. apply Forall_map.
  eapply Forall_impl; [|exact F]. intros row Hr. now rewrite map_length, seq_length.
Qed.
Lemma nonzero_part : py_nonzero W = map (part T) W.
Proof.
  unfold py_nonzero. apply map_ext_in. intros row I. destruct SW as (_ & F). rewrite Forall_forall in F.
  rewrite (F row I). reflexivity.
Qed.
Lemma ws_len d : d < D -> length (ws d) = T.
Proof. intros H. destruct SW as (L & F). rewrite Forall_forall in F. apply F, nth_In. lia. Qed.
Lemma ms_len d : d < D -> length (ms d) = T.
Proof. intros H. destruct team_msgs_shape as (L & F). rewrite Forall_forall in F. apply F, nth_In. lia. Qed.
Lemma part_ne d : d < D -> part T (ws d) <> [].
Proof.
  intros H. destruct (Some_team d H) as (t & Ht & N). intros E.
  assert (I : In t (part T (ws d))).
  { apply filter_In. split; [apply in_seq; lia|]. apply negb_true_iff, Nat.eqb_neq. exact N. }
  rewrite E in I. destruct I.
Qed.
Lemma get_W d : d < D -> get W d = Some (ws d).
Proof. intros H. apply get_nth. destruct SW; lia. Qed.
Lemma get_msgs d : d < D -> get (inj team_msgs) d = Some (map Fin (ms d)).
Proof. intros H. unfold inj. rewrite get_map, (get_nth _ d []) by (destruct team_msgs_shape; lia). reflexivity. Qed.
Lemma read_teams_ok : read_teams D T W (inj team_msgs) =
  Some (W, map (part T) W, map (fun row => length (part T row)) W, inj team_msgs).
Proof.
  unfold read_teams. rewrite nonzero_part. rewrite (read_rows_ok 0 D T) by auto. cbn [bind].
  replace D with (length (map (part T) W)) at 1 by (rewrite map_length; apply SW). rewrite read_padded_ok. cbn [bind].
  rewrite (read_rows_ok n0 D T) by (apply shape_inj, team_msgs_shape). cbn [bind]. now rewrite map_map.
Qed.
Lemma map_seq_nth {A B} (f : A -> B) l d n : length l = n -> map (fun i => f (nth i l d)) (seq 0 n) = map f l.
Proof. intros <-. rewrite <- (map_map (fun i => nth i l d) f), map_nth_seq. reflexivity. Qed.
Lemma combine_same {A} (l : list A) : combine l l = map (fun y => (y, y)) l.
Proof. induction l as [|x l IH]; cbn; [|rewrite IH]; reflexivity. Qed.

(** no team is in three departments *)
Theorem C90_team_to_knapsack : forall (X : list (list Qc)) (oric : list Qc), T <> 0 -> shape D T X -> length oric = T ->
  (forall d1 d2 d3 t, d1 < d2 < d3 -> d3 < D ->
     nth t (ws d1) 0 = 0 \/ nth t (ws d2) 0 = 0 \/ nth t (ws d3) 0 = 0) ->
  test_passes (D * T) (ut_team_to_knapsack D T W (map Fin reward) (inj X) (map Fin oric)).
Proof.
  intros X oric HT SX LO H3. unfold ut_team_to_knapsack. rewrite nonzero_part.
  destruct (team_same D T W reward oric X) as (R & A & B & SR); auto.
  - apply SW.
  - apply SW.
  - apply Forall_forall. intros row I. apply (In_nth _ _ []) in I as (d & Hd & <-). apply part_ne. destruct SW; lia.
  - assert (EN : forall d, d < D -> nth d (map (part T) W) [] = part T (ws d)).
    { intros d Hd. rewrite (nth_indep _ [] (part T [])) by (rewrite map_length; destruct SW; lia). now rewrite map_nth. }
    assert (NZ : forall d t, d < D -> In t (nth d (map (part T) W) []) -> nth t (ws d) 0 <> 0).
    { intros d t Hd I. rewrite EN in I by exact Hd. apply filter_In in I as (_ & I). now apply negb_true_iff, Nat.eqb_neq in I. }
    intros d1 d2 d3 t D1 D2 D3 I1 I2 I3. apply NZ in I1, I2, I3; auto.
    assert (K : forall x y z, x < y < z -> z < D -> nth t (ws x) 0 <> 0 -> nth t (ws y) 0 <> 0 -> nth t (ws z) 0 <> 0 -> False).
    { intros x y z A1 A2 B1 B2 B3. destruct (H3 x y z t A1 A2) as [|[|]]; auto. }
    destruct (Nat.eq_dec d1 d2); [tauto|]. destruct (Nat.eq_dec d1 d3); [tauto|]. destruct (Nat.eq_dec d2 d3); [tauto|].
    exfalso.
    destruct (Nat.lt_ge_cases d1 d2), (Nat.lt_ge_cases d2 d3), (Nat.lt_ge_cases d1 d3);
      first [lia|solve [apply (K d1 d2 d3); auto; lia]|solve [apply (K d1 d3 d2); auto; lia]|solve [apply (K d2 d1 d3); auto; lia]
        |solve [apply (K d2 d3 d1); auto; lia]|solve [apply (K d3 d1 d2); auto; lia]|solve [apply (K d3 d2 d1); auto; lia]].
  - rewrite A. cbn [bind].
    replace (read_padded D) with (read_padded (length (map (part T) W))) by (f_equal; rewrite map_length; apply SW).
    rewrite read_padded_ok. cbn [bind]. rewrite (slice_all (map Fin reward)) by (rewrite map_length; auto). cbn [bind].
    rewrite (read_rows_ok n0 D T) by now apply shape_inj. cbn [bind].
    rewrite (slice_all (map Fin oric)) by (rewrite map_length; auto). cbn [bind]. rewrite B. cbn [bind].
    eapply passes_intro; [reflexivity|now apply shape_concat_length|nia].
Qed.

(** the capacities *)
Variable Nu : list nat.
Hypothesis LN : length Nu = D.
Local Notation cap d := (nth d Nu 0).
Lemma get_Nu d : d < D -> get Nu d = Some (cap d).
Proof. intros H. apply get_nth. lia. Qed.
Definition ftable (d : nat) : list (list num) := map (frows (cap d) (ws d) (ms d)) (seq 0 (T + 1)).
Definition btable (d : nat) : list (list num) := map (fun j => brows T (cap d) (ws d) (ms d) (T - j)) (seq 0 (T + 1)).
Lemma table_length c (f : nat -> list num) : (forall j, j <= T -> row_ok c (f j)) ->
  length (concat (map f (seq 0 (T + 1)))) = (T + 1) * (c + 1) /\ Forall plain (concat (map f (seq 0 (T + 1)))).
Proof.
  intros H. split.
  - apply shape_concat_length. split; [now rewrite map_length, seq_length|]. apply Forall_map, Forall_forall.
    intros j I. apply in_seq in I. apply H. lia.
  - apply Forall_concat, Forall_map, Forall_forall. intros j I. apply in_seq in I. apply H. lia.
Qed.

Theorem C90_forward : tables_pass (map (fun c => (T + 1) * (c + 1)) Nu) (ut_tables false D T Nu W (map Fin reward)).
Proof.
  unfold ut_tables. rewrite team_msgs_inj.
  rewrite (mapM_map _ ftable).
  2:{ intros d I. apply in_seq in I. rewrite get_Nu, get_msgs, get_W by lia. cbn [bind].
      apply py_forward_rows; [apply ws_len; lia|apply ms_len; lia|apply part_ne; lia]. }
  cbn [bind]. rewrite read_teams_ok. cbn [bind].
  rewrite (mapM_map _ ftable).
  2:{ intros d I. apply in_seq in I. rewrite get_Nu, get_W, get_msgs by lia. cbn [bind].
      rewrite !get_map, get_W by lia. cbn [option_map bind].
      apply forward_rows; [apply ws_len; lia|apply ms_len; lia|apply part_ne; lia|apply shape_repeat]. }
  cbn [bind]. rewrite combine_same. apply tables_pass_intro.
  - destruct D; [congruence|discriminate].
  - apply Forall_map, Forall_map, Forall_forall. intros d I. apply in_seq in I. split.
    + apply (table_length (cap d)). intros j _. apply (frows_ok T); [apply ws_len; lia|apply ms_len; lia].
    + unfold ftable. rewrite Nat.add_1_r. cbn [seq map concat frows app]. left. reflexivity.
  - rewrite !map_map. rewrite <- (map_seq_nth (fun c => (T + 1) * (c + 1)) Nu 0 D LN). apply map_ext_in. intros d I.
    apply in_seq in I. apply (table_length (cap d)). intros j _. apply (frows_ok T); [apply ws_len; lia|apply ms_len; lia].
Qed.

(** a department has room for every team *)
Hypothesis Fit : forall d t, d < D -> t < T -> nth t (ws d) 0 <= cap d.
Theorem C90_backward : tables_pass (map (fun c => (T + 1) * (c + 1)) Nu) (ut_tables true D T Nu W (map Fin reward)).
Proof.
  unfold ut_tables. rewrite team_msgs_inj.
  rewrite (mapM_map _ btable).
  2:{ intros d I. apply in_seq in I. rewrite get_Nu, get_msgs, get_W by lia. cbn [bind].
      apply py_backward_rows; [apply ws_len; lia|apply ms_len; lia|intros t Ht; apply Fit; lia|apply part_ne; lia]. }
  cbn [bind]. rewrite read_teams_ok. cbn [bind].
  rewrite (mapM_map _ btable).
  2:{ intros d I. apply in_seq in I. rewrite get_Nu, get_W, get_msgs by lia. cbn [bind].
      rewrite !get_map, get_W by lia. cbn [option_map bind].
      apply backward_rows; [apply ws_len; lia|apply ms_len; lia|intros t Ht; apply Fit; lia|apply part_ne; lia|apply shape_repeat]. }
  cbn [bind]. rewrite combine_same.
  assert (R : forall d, d < D -> forall j, j <= T -> row_ok (cap d) (brows T (cap d) (ws d) (ms d) (T - j))).
  { intros d Hd j Hj. apply brows_ok; [apply ws_len; lia|apply ms_len; lia|intros t Ht; apply Fit; lia|lia]. }
  apply tables_pass_intro.
  - destruct D; [congruence|discriminate].
  - apply Forall_map, Forall_map, Forall_forall. intros d I. apply in_seq in I. split.
    + apply (table_length (cap d)). intros j Hj. apply R; lia.
    + unfold btable. rewrite seq_app, map_app, concat_app. apply in_or_app. right. cbn [seq map concat plus].
      rewrite Nat.sub_diag. cbn [brows]. rewrite Nat.add_1_r. left. reflexivity.
  - rewrite !map_map. rewrite <- (map_seq_nth (fun c => (T + 1) * (c + 1)) Nu 0 D LN). apply map_ext_in. intros d I.
    apply in_seq in I. apply (table_length (cap d)). intros j Hj. apply R; lia.
Qed.

(** [fwd] and [bwd]: for every department a table with a row for each stage and a column for each load. *)
Theorem C90_extrinsic_department : forall fwd bwd : list (list (list num)), T <> 0 -> length fwd = D -> length bwd = D ->
  (forall d, d < D -> shape (T + 1) (cap d + 1) (nth d fwd [])) ->
  (forall d, d < D -> shape (T + 1) (cap d + 1) (nth d bwd [])) ->
  test_passes (D * T) (ut_extrinsic_department D T Nu W (map Fin reward) fwd bwd).
Proof.
  intros fwd bwd HT LF LB SF SB. unfold ut_extrinsic_department. rewrite team_msgs_inj.
  set (rows := fun d => row_out T (cap d) (ws d) (map Fin (ms d)) (nth d fwd []) (nth d bwd [])).
  rewrite (mapM_map _ rows).
  2:{ intros d I. apply in_seq in I. rewrite get_Nu, get_msgs, get_W by lia. cbn [bind].
      rewrite (get_nth _ d []), (get_nth bwd d []) by lia. cbn [bind].
      apply py_extrinsic_row_eq; [apply ws_len; lia|rewrite map_length; apply ms_len; lia|intros t Ht; apply Fit; lia|apply SF; lia|apply SB; lia]. }
  cbn [bind]. rewrite (read_rows_ok 0 D T) by auto. cbn [bind].
  rewrite (read_rows_ok n0 D T) by (apply shape_inj, team_msgs_shape). cbn [bind].
  rewrite (mapM_map _ rows).
  2:{ intros d I. apply in_seq in I. rewrite get_Nu, get_msgs, get_W by lia. cbn [bind].
      rewrite (get_nth _ d []), (get_nth bwd d []) by lia. cbn [bind].
      rewrite (read_rows_ok n0 (T + 1) (cap d + 1)) by (apply SF; lia). cbn [bind].
      rewrite (read_rows_ok n0 (T + 1) (cap d + 1)) by (apply SB; lia). cbn [bind].
      apply extrinsic_row_eq; [apply ws_len; lia|rewrite map_length; apply ms_len; lia|intros t Ht; apply Fit; lia|apply SF; lia|apply SB; lia|apply repeat_length]. }
  cbn [bind]. eapply passes_intro; [reflexivity| |nia]. apply shape_concat_length.
  split; [now rewrite map_length, seq_length|]. apply Forall_map, Forall_forall. intros d _. unfold rows, row_out.
  now rewrite map_length, seq_length.
Qed.

End Knapsack.

Lemma filter_run_shape flag a n k raws : Forall (shape n k) raws ->
  forall iter O out R, shape n k O -> shape n k out ->
  filter_run flag (Fin a) n iter (map inj raws) (inj O) (inj out) = Some R -> shape n k (fst R).
Proof.
  intros HR. induction HR as [|M raws HM HR IH]; intros iter O out R HO Hout; cbn [map filter_run].
  - intros E. injection E as <-. now apply shape_inj.
  - destruct (process_filtering_ok flag a iter n n k M O (inj out)) as (Q & O' & E & SQ & SO & _);
      auto using shape_inj. rewrite E. cbn [bind]. intros X. eapply IH; [| |exact X]; auto.
Qed.
Theorem C90_process : forall (D T : nat) (flag : bool) (a : Qc) (iters : nat) (M : list (list Qc)), D <> 0 -> T <> 0 -> shape D T M ->
  (flag = true -> a <> 0%Qc) ->
  test_passes (D * T) (ut_process D T flag (Fin a) iters (inj M)).
Proof.
  intros D T flag a iters M HD HT SM Ha. unfold ut_process.
  rewrite (read_rows_ok n0 D T) by now apply shape_inj. cbn [bind].
  change (np_zeros D T) with (repeat (repeat n0 T) D).
  assert (Z : repeat (repeat n0 T) D = inj (repeat (repeat 0%Qc T) D)).
  { unfold inj. rewrite !map_repeat. reflexivity. }
  rewrite Z. rewrite <- (map_repeat inj).
  assert (F : Forall (shape D T) (repeat M iters)) by (apply Forall_forall; intros X I; apply repeat_spec in I; now subst).
  destruct (filter_run_same flag a D T (repeat M iters) Ha F 0 (repeat (repeat 0%Qc T) D) (repeat (repeat 0%Qc T) D) None)
    as (R & O & E1 & E2); auto using shape_repeat. { intros _ H. lia. }
  rewrite E2. cbn [bind]. rewrite E1. cbn [bind].
  eapply passes_intro; [reflexivity| |nia]. apply shape_concat_length.
  eapply (filter_run_shape flag a D T _ F 0 _ _ (R, O)); [| |exact E1]; apply shape_repeat.
Qed.

(** Two departments of capacity 2 and 3, four teams, of which the third needs both. *)
Example C90_example :
  let Nu := [2; 3] in let W := [[0; 1; 2; 0]; [3; 0; 1; 2]] in
  let reward := map zq [-5; 2; -4; -1]%Z in
  shape 2 4 W /\
  (forall d t, d < 2 -> t < 4 -> nth t (nth d W []) 0 <= nth d Nu 0) /\
  (forall d, d < 2 -> exists t, t < 4 /\ nth t (nth d W []) 0 <> 0) /\
  option_map (map (fun f => (map view (fst f), map view (snd f)))) (ut_tables false 2 4 Nu W (map Fin reward)) =
    (let z x := VFin (inject_Z x) in let i := VPInf in
     let f0 := [z 0; i; i; z 0; i; i; z 0; z 2; i; z 0; z 2; z (-4); z 0; z 2; z (-4)]%Z in
     let f1 := [z 0; i; i; i; z 0; i; i; z (-5); z 0; i; i; z (-5); z 0; z (-4); i; z (-5); z 0; z (-4); z (-1); z (-5)]%Z in
     Some [(f0, f0); (f1, f1)]) /\
  option_map (map (fun f => (map view (fst f), map view (snd f)))) (ut_tables true 2 4 Nu W (map Fin reward)) =
    (let z x := VFin (inject_Z x) in
     let b0 := [z (-4); z 0; z 0; z (-4); z 0; z 0; z (-4); z 0; z 0; z 0; z 0; z 0; z 0; z 0; z 0]%Z in
     let b1 := [z (-5); z (-4); z (-4); z 0; z (-5); z (-4); z (-4); z 0; z (-5); z (-4); z (-4); z 0; z (-1); z (-1); z 0; z 0;
                z 0; z 0; z 0; z 0]%Z in
     Some [(b0, b0); (b1, b1)]).
Proof.
  cbv zeta. split; [split; [reflexivity|repeat constructor]|]. split.
  { intros [|[|d]] [|[|[|[|t]]]] Hd Ht; cbn; lia. }
  split. { intros [|[|d]] Hd; [exists 1|exists 0|lia]; cbn; lia. }
  split; vm_compute; reflexivity.
Qed.
Example C90_steps_example :
  let Nu := [2; 3] in let W := [[0; 1; 2; 0]; [3; 0; 1; 2]] in
  let reward := map zn [-5; 2; -4; -1]%Z in
  let show := option_map (fun f : files => (map view (fst f), map view (snd f))) in
  let both l := Some (map (fun x => VFin (inject_Z x)) l, map (fun x => VFin (inject_Z x)) l) in
  let fwd := [[[2; -1; 3]; [0; 4; -2]; [1; 1; -3]; [5; 2; -4]; [0; 0; 7]];
              [[1; 0; -2; 6]; [3; -5; 2; 2]; [0; 1; 8; -1]; [4; 4; -6; 0]; [2; 9; 1; -3]]]%Z in
  let bwd := [[[6; 2; -1]; [1; -7; 0]; [3; 3; 2]; [-2; 4; 0]; [1; 0; 5]];
              [[0; 3; -1; 2]; [5; -2; 4; 1]; [7; 0; 0; -3]; [1; -4; 2; 6]; [2; 8; -1; 0]]]%Z in
  show (ut_extrinsic_department 2 4 Nu W reward (map (map (map zn)) fwd) (map (map (map zn)) bwd))
    = both [0; 3; 4; 0; -4; 0; -1; 10]%Z /\
  show (ut_team_to_knapsack 2 4 W reward (map (map zn) [[1; 2; 3; 4]; [5; 6; 7; 8]]%Z) (map zn [10; 20; 30; 40]%Z))
    = both [0; 22; 33; 0; 5; 0; 29; 39]%Z /\
  show (ut_process 2 2 true (Fin (Q2Qc (1 # 2))) 3 (map (map zn) [[8; 16]; [-8; 24]]%Z)) = both [7; 14; -7; 21]%Z.
Proof. cbv zeta. split; [|split]; vm_compute; reflexivity. Qed.

(** ** The teams that are generated.  If every kind of team fits into its departments, the weights meet all that
    is assumed above. *)
Local Notation all_pairs_of caps := (list_prod (units (length caps)) (units (length caps))).
Theorem C90_teams : forall caps types, caps <> [] -> types <> [] -> Forall (fun ty => 1 <= ty <= 5) types ->
  room caps types (all_pairs_of caps) ->
  exists teams, generated caps types (all_pairs_of caps) teams /\ teams <> [] /\
    let W := map (fun d => map (need d) teams) (seq 1 (length caps)) in
    ut_teams caps types = Some (length teams, W) /\
    (forall d t, d < length caps -> t < length teams -> nth t (nth d W []) 0 <= nth d caps 0) /\
    (forall d, d < length caps -> exists t, t < length teams /\ nth t (nth d W []) 0 <> 0) /\
    (forall d1 d2 d3 t, d1 < d2 < d3 -> d3 < length caps ->
       nth t (nth d1 W []) 0 = 0 \/ nth t (nth d2 W []) 0 = 0 \/ nth t (nth d3 W []) 0 = 0).
Proof.
  intros caps types HC HT Ht Hroom.
  assert (HD : length caps <> 0) by (destruct caps; [congruence|discriminate]).
  set (teams := teams_of caps (blocks types (all_pairs_of caps))). exists teams. split.
  { exists (count_fn caps). split; [|reflexivity]. intros b Hb. apply count_ok, (ut_in_range caps types HD Ht b Hb). }
  assert (ST : forall d, d < length caps -> exists t, t < length teams /\ need (d + 1) (nth t teams (0, 0, 0)) <> 0).
  { intros d Hd. apply (ut_some_team caps types); auto. }
  split. { intros E. destruct (ST 0 ltac:(lia)) as (t & Hlt & _). rewrite E in Hlt. cbn in Hlt. lia. }
  cbv zeta. split; [apply ut_teams_ok; auto|]. split; [|split].
  - intros d t Hd Hlt. unfold teams. rewrite (ut_weight caps types) by auto. apply (ut_fit caps types); auto.
  - intros d Hd. destruct (ST d Hd) as (t & Hlt & N). exists t. split; auto. unfold teams. rewrite (ut_weight caps types); auto.
  - intros d1 d2 d3 t H1 H3. destruct (Nat.lt_ge_cases t (length teams)) as [Hlt|Hge].
    + unfold teams. rewrite !(ut_weight caps types) by (auto; lia). apply ut_two_departments. lia.
    + left. apply nth_overflow. rewrite (nth_indep _ [] (map (need 0) teams)) by (rewrite map_length, seq_length; lia).
      rewrite (map_nth (fun d => map (need d) teams)). now rewrite map_length.
Qed.

(** All tests of the knapsack steps, on whatever is drawn for the generated teams. *)
Theorem C90_generated : forall caps types, caps <> [] -> types <> [] -> Forall (fun ty => 1 <= ty <= 5) types ->
  room caps types (all_pairs_of caps) ->
  exists T W, ut_teams caps types = Some (T, W) /\ T <> 0 /\
    (forall reward, length reward = T ->
       tables_pass (map (fun c => (T + 1) * (c + 1)) caps) (ut_tables false (length caps) T caps W (map Fin reward)) /\
       tables_pass (map (fun c => (T + 1) * (c + 1)) caps) (ut_tables true (length caps) T caps W (map Fin reward))) /\
    (forall reward fwd bwd, length reward = T -> length fwd = length caps -> length bwd = length caps ->
       (forall d, d < length caps -> shape (T + 1) (nth d caps 0 + 1) (nth d fwd [])) ->
       (forall d, d < length caps -> shape (T + 1) (nth d caps 0 + 1) (nth d bwd [])) ->
       test_passes (length caps * T) (ut_extrinsic_department (length caps) T caps W (map Fin reward) fwd bwd)) /\
    (forall reward X oric, length reward = T -> shape (length caps) T X -> length oric = T ->
       test_passes (length caps * T) (ut_team_to_knapsack (length caps) T W (map Fin reward) (inj X) (map Fin oric))) /\
    (forall flag a iters M, shape (length caps) T M -> (flag = true -> a <> 0%Qc) ->
       test_passes (length caps * T) (ut_process (length caps) T flag (Fin a) iters (inj M))).
Proof.
  intros caps types HC HT Ht Hroom. destruct (C90_teams caps types HC HT Ht Hroom) as (teams & _ & NE & E & Fit & ST & Two).
  set (W := map (fun d => map (need d) teams) (seq 1 (length caps))) in *. exists (length teams), W.
  assert (HD : length caps <> 0) by (destruct caps; [congruence|discriminate]).
  assert (HL : length teams <> 0) by (destruct teams; [congruence|discriminate]).
  assert (SW : shape (length caps) (length teams) W).
  { split; [unfold W; now rewrite map_length, seq_length|]. apply Forall_map, Forall_forall. intros d _. apply map_length. }
  split; [exact E|]. split; [exact HL|]. split; [|split; [|split]].
  - intros reward LR. split; [apply C90_forward|apply C90_backward]; auto.
  - intros. apply C90_extrinsic_department; auto.
  - intros. apply C90_team_to_knapsack; auto.
  - intros. apply C90_process; auto.
Qed.
Example C90_generated_example :
  room [2; 3] [1; 2] (all_pairs_of [2; 3]) /\
  ut_teams [2; 3] [1; 2] = Some (11, [[1; 1; 2; 1; 1; 1; 1; 0; 0; 0; 0]; [0; 0; 0; 1; 1; 1; 1; 1; 1; 1; 2]]).
Proof.
  split; [|vm_compute; reflexivity]. intros b Hb Hs d Hd. cbn in Hb, Hd.
  repeat (destruct Hb as [<- |Hb]; [destruct d as [|[|[|d]]]; try lia; cbn; lia|]). destruct Hb.
Qed.

(** Without room for every kind of team the tests do not pass: a department of one place still gets a team of two
    members, and the backward test reads past the row. *)
Theorem C90_room_refuted : exists caps types T W reward,
  caps <> [] /\ types <> [] /\ Forall (fun ty => 1 <= ty <= 5) types /\ ut_teams caps types = Some (T, W) /\
  length reward = T /\
  tables_pass (map (fun c => (T + 1) * (c + 1)) caps) (ut_tables false (length caps) T caps W (map Fin reward)) /\
  ut_tables true (length caps) T caps W (map Fin reward) = None.
Proof.
  exists [1], [2], 1, [[2]], (map zq [-5]%Z). split; [discriminate|]. split; [discriminate|].
  split; [repeat constructor|]. split; [vm_compute; reflexivity|]. split; [reflexivity|].
  split; [|vm_compute; reflexivity]. apply C90_forward; [discriminate|split; [reflexivity|repeat constructor]|reflexivity| |reflexivity].
  intros d Hd. exists 0. destruct d; [cbn; lia|cbn in Hd; lia].
Qed.
(** With filtering on and alpha 0 the Python step returns no array. *)
Theorem C90_alpha_refuted : exists D T iters M, shape D T M /\ D <> 0 /\ T <> 0 /\
  ut_process D T true (Fin 0%Qc) iters (inj M) = None.
Proof.
  exists 1, 1, 2, [[zq 3]]. split; [split; [reflexivity|repeat constructor]|]. split; [discriminate|]. split; [discriminate|].
  vm_compute. reflexivity.
Qed.
(** A department without a participating team stops the programs of the passes. *)
Theorem C90_no_team_refuted : forall back reward,
  ut_tables back 2 1 [1; 1] [[1]; [0]] (map Fin [reward]) = None.
Proof. intros [|] reward; cbv -[nadd nmin]; reflexivity. Qed.

Print Assumptions C90_forward.
Print Assumptions C90_backward.
Print Assumptions C90_extrinsic_department.
Print Assumptions C90_team_to_knapsack.
Print Assumptions C90_process.
Print Assumptions C90_teams.
Print Assumptions C90_generated.
Print Assumptions C90_room_refuted.
Print Assumptions C90_alpha_refuted.
Print Assumptions C90_no_team_refuted.
