(** * The pieces of subtours that the TSP post-processing prints: C75. *)
From Coq Require Import Permutation.
From Verif Require Import Num Arr ArrFacts Spec SpecGraph M_Ksat_Py P_Ksat_Py M_Tsp_Loops M_Tsp_Run M_Tsp_Py M_Tsp_Post P_Tsp_Tour P_Tsp_Walks T_Tsp_Repair.
Local Open Scope nat_scope.

(** steps of a list with an element added at the end *)
Lemma steps_snoc l x y : steps (l ++ [x; y]) = steps (l ++ [x]) ++ [(x, y)].
Proof.
  induction l as [|a l IH]; [reflexivity|]. destruct l as [|b l]; [reflexivity|].
  change (steps ((a :: b :: l) ++ [x; y])) with ((a, b) :: steps ((b :: l) ++ [x; y])). rewrite IH. reflexivity.
Qed.
Lemma steps_app_l a b e : In e (steps a) -> In e (steps (a ++ b)).
Proof.
  induction a as [|x a IH]; [intros []|]. destruct a as [|y a]; [intros []|].
  change (steps ((x :: y :: a) ++ b)) with ((x, y) :: steps ((y :: a) ++ b)). intros [<-|H]; [now left|right; now apply IH].
Qed.

Section Pieces.
Variable removed : list (nat * nat).
Notation cut e := (edge_mem e removed).

(** what the loop over one path collects, [acc] being the piece under way *)
Lemma clean_ok : forall path acc x0 rest, path = x0 :: rest -> (forall e, In e (steps (acc ++ [x0])) -> cut e = false) ->
  let ps := fst (clean_path removed path acc) in
  Forall (fun p => p <> [] /\ (exists a b, acc ++ path = a ++ p ++ b) /\ forall e, In e (steps p) -> cut e = false) ps /\
  (forall e, In e (steps (acc ++ path)) -> cut e = false -> exists p, In p ps /\ In e (steps p)) /\
  (forall x, count_occ Nat.eq_dec (concat ps) x <= count_occ Nat.eq_dec (acc ++ path) x).
Proof.
  induction path as [|x path IH]; intros acc x0 rest E Hacc; [discriminate|]. injection E as <- <-. cbn [clean_path].
  destruct path as [|y path].
  - cbn [fst]. split; [|split].
    + constructor; [|constructor]. split; [now destruct acc|]. split; [exists [], []; now rewrite app_nil_r|exact Hacc].
    + intros e He _. exists (acc ++ [x]). split; [now left|exact He].
    + intros z. cbn [concat]. rewrite app_nil_r. lia.
  - assert (SP : forall acc, acc ++ x :: y :: path = (acc ++ [x]) ++ y :: path) by (intros; now rewrite <- app_assoc).
    destruct (cut (x, y)) eqn:C; cbn [fst].
    + destruct (IH [] y path eq_refl) as (F & Cov & Cnt). { intros e []. }
      cbn [app] in F, Cov, Cnt. set (ps := fst (clean_path removed (y :: path) [])) in *. split; [|split].
      * apply Forall_app. split.
        -- destruct (nonempty acc) eqn:Ne; [|constructor]. constructor; [|constructor]. split; [now destruct acc|].
           split; [exists [], (y :: path); cbn [app]; apply SP|exact Hacc].
        -- eapply Forall_impl; [|exact F]. intros p (N & (a & b & E) & H). split; [exact N|]. split; [|exact H].
           exists ((acc ++ [x]) ++ a), b. rewrite SP, E, <- !app_assoc. reflexivity.
      * intros e He Ce.
        assert (D : In e (steps (acc ++ [x])) \/ e = (x, y) \/ In e (steps (y :: path))).
        { revert He. clear. induction acc as [|a acc IH]; intros He.
          - cbn [app] in He. change (steps (x :: y :: path)) with ((x, y) :: steps (y :: path)) in He.
            destruct He as [<-|He]; auto.
          - destruct acc as [|b acc]; cbn [app] in *.
            + change (steps (a :: x :: y :: path)) with ((a, x) :: steps (x :: y :: path)) in He.
              destruct He as [<-|He]; [left; now left|]. destruct (IH He) as [[]|H]; auto.
            + change (steps (a :: b :: acc ++ x :: y :: path)) with ((a, b) :: steps (b :: acc ++ x :: y :: path)) in He.
              change (steps (a :: b :: acc ++ [x])) with ((a, b) :: steps (b :: acc ++ [x])).
              destruct He as [<-|He]; [left; now left|]. destruct (IH He) as [H|H]; [left; now right|auto]. }
        destruct D as [D|[->|D]]; [|congruence|].
        -- exists (acc ++ [x]). split; [|exact D]. apply in_or_app. left. destruct acc; [destruct D|now left].
        -- destruct (Cov e D Ce) as (p & Ip & Sp). exists p. split; [apply in_or_app; now right|exact Sp].
      * intros z. rewrite concat_app, SP, !count_occ_app. specialize (Cnt z).
        assert (count_occ Nat.eq_dec (concat (if nonempty acc then [acc ++ [x]] else [])) z <= count_occ Nat.eq_dec (acc ++ [x]) z).
        { destruct (nonempty acc); cbn [concat]; [rewrite app_nil_r; lia|cbn; lia]. }
        rewrite count_occ_app in *. lia.
    + destruct (IH (acc ++ [x]) y path eq_refl) as (F & Cov & Cnt).
      { intros e He. rewrite <- app_assoc in He. cbn [app] in He. rewrite steps_snoc in He.
        apply in_app_or in He as [He|[<-|[]]]; [now apply Hacc|exact C]. }
      rewrite <- SP in F, Cov, Cnt. auto.
Qed.

Variable loops : list (list nat).
Hypothesis Long : Forall (fun l => 2 <= length l) loops.
Hypothesis Disj : NoDup (concat loops).
Let all : list (list nat) := concat (map fst (map (fun p => clean_path removed p []) (map closed loops))).

Lemma closed_cons l : 2 <= length l -> exists x y rest, l = x :: y :: rest /\ closed l = x :: y :: rest ++ [x].
Proof. destruct l as [|x [|y rest]]; cbn; try lia. intros _. now exists x, y, rest. Qed.
Lemma piece_of p : In p all <-> exists l, In l loops /\ In p (fst (clean_path removed (closed l) [])).
Proof.
  unfold all. rewrite !map_map, in_concat. split.
  - intros (ps & I & J). apply in_map_iff in I as (l & <- & Il). eauto.
  - intros (l & Il & J). eexists. split; [apply in_map_iff; eauto|exact J].
Qed.
Lemma loop_ok l : In l loops ->
  let ps := fst (clean_path removed (closed l) []) in
  Forall (fun p => p <> [] /\ (exists a b, closed l = a ++ p ++ b) /\ forall e, In e (steps p) -> cut e = false) ps /\
  (forall e, In e (steps (closed l)) -> cut e = false -> exists p, In p ps /\ In e (steps p)) /\
  (forall x, count_occ Nat.eq_dec (concat ps) x <= count_occ Nat.eq_dec (closed l) x).
Proof.
  intros I. rewrite Forall_forall in Long. destruct (closed_cons l (Long l I)) as (x & y & rest & _ & E).
  apply (clean_ok (closed l) [] x (y :: rest ++ [x])); [exact E|]. intros e [].
Qed.
(** a node that is not the first of its loop is in one piece only *)
Lemma count_all x : count_occ Nat.eq_dec (concat all) x <=
  count_occ Nat.eq_dec (concat loops) x + count_occ Nat.eq_dec (map (hd 0) loops) x.
Proof.
  unfold all. assert (L := Long). assert (H : forall l, In l loops ->
    count_occ Nat.eq_dec (concat (fst (clean_path removed (closed l) []))) x <=
    count_occ Nat.eq_dec l x + count_occ Nat.eq_dec [hd 0 l] x).
  { intros l I. destruct (loop_ok l I) as (_ & _ & C). specialize (C x). rewrite Forall_forall in L.
    destruct (closed_cons l (L l I)) as (a & b & r & -> & E). rewrite E in C. cbn [hd].
    change (a :: b :: r ++ [a]) with ((a :: b :: r) ++ [a]) in C. now rewrite count_occ_app in C. }
  clear -H. induction loops as [|l ls IH]; [cbn; lia|]. cbn [map concat]. rewrite concat_app, !count_occ_app.
  specialize (H l (or_introl eq_refl)) as Hl. specialize (IH (fun k I => H k (or_intror I))).
  change (hd 0 l :: map (hd 0) ls) with ([hd 0 l] ++ map (hd 0) ls). rewrite count_occ_app. lia.
Qed.
Lemma twice {A} (dec : forall a b : A, {a = b} + {a <> b}) (L : list (list A)) x : forall i j p q,
  nth_error L i = Some p -> nth_error L j = Some q -> i < j -> In x p -> In x q -> 2 <= count_occ dec (concat L) x.
Proof.
  induction L as [|l L IH]; intros i j p q Gi Gj H Ip Iq; [destruct i; discriminate|]. cbn [concat]. rewrite count_occ_app.
  destruct j as [|j]; [lia|]. cbn in Gj.
  assert (Jn : In x (concat L)) by (apply in_concat; exists q; split; [eapply nth_error_In; eauto|exact Iq]).
  apply (count_occ_In dec) in Jn. destruct i as [|i].
  - injection Gi as ->. apply (count_occ_In dec) in Ip. lia.
  - cbn in Gi. specialize (IH i j p q Gi Gj ltac:(lia) Ip Iq). lia.
Qed.
Lemma long_survives i p : nth_error all i = Some p -> 2 <= length p -> survives all i p.
Proof.
  intros G Lp j q Gj Nij I.
  assert (Ip : In p all) by (eapply nth_error_In; eauto). apply piece_of in Ip as (l & Il & Ip).
  destruct (loop_ok l Il) as (F & _ & _). rewrite Forall_forall in F. destruct (F p Ip) as (_ & (a & b & E) & _).
  pose proof Long as Long'. rewrite Forall_forall in Long'.
  destruct (closed_cons l (Long' l Il)) as (x & y & rest & El & Ec).
  assert (Nl : NoDup l). { clear -Disj Il. induction loops as [|k ls IH]; [destruct Il|]. cbn in Disj.
    destruct Il as [->|Il].
    - revert Disj. clear. induction l as [|h t IHt]; cbn; [constructor|]. inversion 1; subst. constructor; auto.
      intros X. apply H1, in_or_app. now left.
    - apply IH; [|exact Il]. revert Disj. clear. induction k as [|h t IHt]; cbn; auto. inversion 1; auto. }
  (* two neighbours, one of which is not the first node *)
  assert (exists z, In z p /\ z <> x /\ In z l) as (z & Iz & Nz & Izl).
  { destruct p as [|u [|v p]]; cbn in Lp; try lia.
    assert (K : forall w, In w (u :: v :: p) -> In w l).
    { intros w Iw. assert (In w (closed l)) by (rewrite E; apply in_or_app; right; apply in_or_app; now left).
      unfold closed in H. apply in_app_or in H as [H|H]; [exact H|]. rewrite El in *. cbn in H. destruct H as [<-|[]]. now left. }
    destruct (Nat.eq_dec u x) as [->|Nu]; [|exists u; split; [now left|]; split; [exact Nu|]; apply K; now left].
    exists v. split; [right; now left|]. split; [|apply K; right; now left]. intros ->.
    (* x twice in a row *)
    assert (C : a = [] -> False).
    { intros ->. rewrite Ec in E. cbn in E. injection E as -> _. rewrite El in Nl. inversion Nl. apply H1. now left. }
    destruct a as [|a0 a]; [now apply C|]. rewrite Ec in E. cbn in E. injection E as <- E.
    rewrite El in Nl. inversion Nl as [|? ? Nx Nr]; subst.
    assert (Cn : count_occ Nat.eq_dec (y :: rest ++ [x]) x = 1).
    { change (y :: rest ++ [x]) with ((y :: rest) ++ [x]). rewrite count_occ_app. rewrite (proj1 (count_occ_not_In Nat.eq_dec _ _) Nx).
      cbn. destruct (Nat.eq_dec x x); congruence. }
    rewrite E, count_occ_app in Cn. cbn in Cn. destruct (Nat.eq_dec x x) as [_|]; [|congruence]. lia. }
  assert (C2 : 2 <= count_occ Nat.eq_dec (concat all) z).
  { destruct (Nat.lt_ge_cases i j).
    - apply (twice Nat.eq_dec all z i j p q); auto.
    - apply (twice Nat.eq_dec all z j i q p); auto. unfold get in Gj. lia. }
  pose proof (count_all z) as Ca.
  assert (C1 : count_occ Nat.eq_dec (concat loops) z <= 1) by (apply NoDup_count_occ; exact Disj).
  assert (C0 : count_occ Nat.eq_dec (map (hd 0) loops) z = 0).
  { apply count_occ_not_In. intros J. apply in_map_iff in J as (k & Hk & Ik).
    destruct (closed_cons k (Long' k Ik)) as (x' & y' & r' & Ek & _). rewrite Ek in Hk. cbn in Hk. subst x'.
    assert (k = l).
    { apply In_nth_error in Ik as (n1 & G1). apply In_nth_error in Il as (n2 & G2).
      destruct (Nat.lt_trichotomy n1 n2) as [X|[X|X]]; [|congruence|]; exfalso.
      - assert (2 <= count_occ Nat.eq_dec (concat loops) z) by (apply (twice Nat.eq_dec loops z n1 n2 k l); auto; rewrite Ek; now left). lia.
      - assert (2 <= count_occ Nat.eq_dec (concat loops) z) by (apply (twice Nat.eq_dec loops z n2 n1 l k); auto; rewrite Ek; now left). lia. }
    match goal with H : k = l |- _ => rewrite H, El in Ek end. injection Ek as -> _ _. congruence. }
  lia.
Qed.

(** The subtours share no nodes.  Every printed piece is a part of a subtour and has no removed edge, every edge
    that was not removed is on a printed piece, and no piece has all its nodes on another one. *)
Theorem C75_pieces :
  let pieces := fst (paths_cleaning removed (map closed loops)) in
  (forall p, In p pieces -> p <> [] /\ (exists l a b, In l loops /\ closed l = a ++ p ++ b) /\
     forall e, In e (steps p) -> ~ In e removed) /\
  (forall l e, In l loops -> In e (steps (closed l)) -> ~ In e removed -> exists p, In p pieces /\ In e (steps p)) /\
  (forall p q, In p pieces -> In q pieces -> p <> q -> ~ incl p q).
Proof.
  cbv zeta. unfold paths_cleaning. cbn [fst]. fold all. split; [|split].
  - intros p I. apply in_maximal in I as (i & G & _). apply nth_error_In, piece_of in G as (l & Il & Ip).
    destruct (loop_ok l Il) as (F & _ & _). rewrite Forall_forall in F. destruct (F p Ip) as (N & (a & b & E) & H).
    split; [exact N|]. split; [eauto|]. intros e He Ie. apply edge_mem_In in Ie. rewrite H in Ie by exact He. discriminate.
  - intros l e Il He Ne. destruct (loop_ok l Il) as (_ & C & _).
    destruct (C e He) as (p & Ip & Sp). { destruct (edge_mem e removed) eqn:X; auto. apply edge_mem_In in X. tauto. }
    assert (J : In p all) by (apply piece_of; eauto). apply In_nth_error in J as (i & G).
    exists p. split; [|exact Sp]. apply in_maximal. exists i. split; [exact G|]. apply long_survives; [exact G|].
    destruct p as [|u [|v p]]; [destruct Sp|destruct Sp|cbn; lia].
  - intros p q Ip Iq N. apply in_maximal in Ip as (i & Gi & Si). apply in_maximal in Iq as (j & Gj & _).
    apply (Si j q Gj). intros ->. congruence.
Qed.
End Pieces.

(** Subtours 0-1-2 and 3-4, with the edges (1,2) and (2,0) removed: the pieces are 0-1 and 3-4-3. *)
Example C75_pieces_example :
  let loops := [[0; 1; 2]; [3; 4]] in let removed := [(1, 2); (2, 0)] in
  Forall (fun l => 2 <= length l) loops /\ NoDup (concat loops) /\
  fst (paths_cleaning removed (map closed loops)) = [[0; 1]; [3; 4; 3]].
Proof. vm_compute. split; [repeat constructor|]. split; [repeat constructor; cbn; intuition congruence|reflexivity]. Qed.

(** Two listed cycles over the same nodes: each contains the other, and nothing is printed at all, although no edge
    was removed. *)
Theorem C75_pieces_refuted :
  exists loops : list (list nat), Forall (fun l => 2 <= length l) loops /\ Forall (fun l => NoDup l) loops /\ NoDup loops /\
    fst (paths_cleaning [] (map closed loops)) = [] /\ loops <> [].
Proof.
  exists [[0; 1; 2]; [0; 2; 1]]. split; [repeat constructor|]. split; [repeat constructor; cbn; intuition congruence|].
  split; [repeat constructor; cbn; intuition congruence|]. split; [reflexivity|discriminate].
Qed.

Print Assumptions C75_pieces.
Print Assumptions C75_pieces_refuted.
