(** * TSP post-processing: k-opt *)
From Coq Require Import Permutation.
From Verif Require Import Num NumFacts Arr ArrFacts Spec SpecGraph SpecTour P_Ksat P_Equality P_Runs.
From Verif Require Import M_InOut M_Tsp_Loops M_Tsp_Run M_Tsp_Py M_Ksat_Py P_Ksat_Py M_Tsp_Post P_Tsp_Tour.
Local Open Scope nat_scope.

(** all pairs of a list, as [combinations _ 2] lists them *)
Fixpoint pairs2 (l : list nat) : list (nat * nat) :=
  match l with [] => [] | x :: l => map (pair x) l ++ pairs2 l end.
Lemma combinations_1 : forall l, combinations l 1 = map (fun x => [x]) l.
Proof. induction l as [|x l IH]; [reflexivity|].
  change (combinations (x :: l) 1) with (map (cons x) (combinations l 0) ++ combinations l 1).
  rewrite IH. destruct l; reflexivity.
Qed.
Lemma combinations_2 : forall l, combinations l 2 = map (fun p => [fst p; snd p]) (pairs2 l).
Proof.
  induction l as [|x l IH]; [reflexivity|].
  change (combinations (x :: l) 2) with (map (cons x) (combinations l 1) ++ combinations l 2).
  rewrite IH, combinations_1. cbn [pairs2]. rewrite map_app, !map_map. reflexivity.
Qed.
Lemma in_pairs2 : forall l a b, In (a, b) (pairs2 l) -> In a l /\ In b l.
Proof.
  induction l as [|x l IH]; intros a b H; [destruct H|]. cbn in H. apply in_app_iff in H as [H|H].
  - apply in_map_iff in H as (y & Q & Hy). injection Q as <- <-. split; [now left|now right].
  - destruct (IH a b H); split; now right.
Qed.

(** which value an assignment list leaves at a position *)
Fixpoint assigned (p : nat) (ps : list (nat * nat)) : option nat :=
  match ps with
  | [] => None
  | q :: ps => match assigned p ps with Some v => Some v | None => if fst q =? p then Some (snd q) else None end
  end.
Lemma assigned_app : forall p l1 l2,
  assigned p (l1 ++ l2) = match assigned p l2 with Some v => Some v | None => assigned p l1 end.
Proof.
  intros p l1 l2; induction l1 as [|q l1 IH]; cbn; [destruct (assigned p l2); reflexivity|].
  rewrite IH. destruct (assigned p l2); reflexivity.
Qed.
Lemma assigned_none : forall p l, (forall q, In q l -> fst q <> p) -> assigned p l = None.
Proof.
  intros p l; induction l as [|q l IH]; intros H; [reflexivity|]. cbn. rewrite IH by (intros; apply H; now right).
  destruct (fst q =? p) eqn:Q; [|reflexivity]. apply Nat.eqb_eq in Q. destruct (H q (or_introl eq_refl) Q).
Qed.
Lemma assign_pairs : forall ps l, Forall (fun q => fst q < length l) ps ->
  exists l', foldM (fun l (iv : nat * nat) => set l (fst iv) (snd iv)) ps l = Some l' /\ length l' = length l /\
    forall p, p < length l -> get l' p = match assigned p ps with Some v => Some v | None => get l p end.
Proof.
  induction ps as [|q ps IH]; intros l F; [exists l; auto|]. inversion F as [|? ? Hq F']; subst.
  cbn [foldM]. rewrite set_lt by exact Hq. cbn [bind].
  destruct (IH (upd l (fst q) (snd q))) as (l' & E & L & G); [now rewrite upd_length|].
  rewrite upd_length in *. exists l'. split; [exact E|]. split; [exact L|].
  intros p Hp. rewrite (G p Hp), get_upd by exact Hq. cbn. destruct (assigned p ps); [reflexivity|].
  rewrite (Nat.eqb_sym (fst q) p). destruct (p =? fst q); reflexivity.
Qed.
Lemma assign_all_pairs : forall l ps (f g : nat * nat -> nat),
  assign_all l (map f ps) (map g ps) = foldM (fun l (iv : nat * nat) => set l (fst iv) (snd iv)) (map (fun q => (f q, g q)) ps) l.
Proof.
  intros l ps f g. unfold assign_all. f_equal. induction ps as [|q ps IH]; [reflexivity|]. cbn. now f_equal.
Qed.

Section Swap.
Variable path : list nat.
Let v (i : nat) := nth i path 0.
Let first_pass (idx : list nat) := map (fun q => (fst q, v (snd q))) (pairs2 idx).
Let second_pass (idx : list nat) := map (fun q => (snd q, v (fst q))) (pairs2 idx).

Lemma get_v : forall i, i < length path -> get path i = Some (v i).
Proof. intros i H. unfold get, v. now apply nth_error_nth'. Qed.

Lemma swap_nodes_ok : forall idx, Forall (fun i => i < length path) idx ->
  exists l, swap_nodes path idx = Some l /\ length l = length path /\
    forall p, p < length path -> get l p =
      Some match assigned p (second_pass idx) with
           | Some x => x
           | None => match assigned p (first_pass idx) with Some x => x | None => v p end
           end.
Proof.
  intros idx F. unfold swap_nodes. rewrite combinations_2.
  assert (R : forall q, In q (pairs2 idx) -> fst q < length path /\ snd q < length path).
  { intros (a & b) H. apply in_pairs2 in H as (Ha & Hb). rewrite Forall_forall in F. cbn; auto. }
  assert (A : mapM (fun q => get q 0) (map (fun p => [fst p; snd p]) (pairs2 idx)) = Some (map fst (pairs2 idx))).
  { rewrite (mapM_Some _ (fun q => nth 0 q 0)), map_map; [reflexivity|].
    intros q Hq. apply in_map_iff in Hq as (p & <- & _). reflexivity. }
  assert (B : mapM (fun q => get q 1) (map (fun p => [fst p; snd p]) (pairs2 idx)) = Some (map snd (pairs2 idx))).
  { rewrite (mapM_Some _ (fun q => nth 1 q 0)), map_map; [reflexivity|].
    intros q Hq. apply in_map_iff in Hq as (p & <- & _). reflexivity. }
  rewrite A. cbn [bind]. rewrite B. cbn [bind].
  rewrite (mapM_Some _ v (map snd (pairs2 idx))).
  2: { intros i Hi. apply in_map_iff in Hi as (q & <- & Hq). apply get_v. now apply R. }
  cbn [bind]. rewrite (mapM_Some _ v (map fst (pairs2 idx))).
  2: { intros i Hi. apply in_map_iff in Hi as (q & <- & Hq). apply get_v. now apply R. }
  cbn [bind]. rewrite !map_map, assign_all_pairs.
  destruct (assign_pairs (first_pass idx) path) as (l1 & E1 & L1 & G1).
  { apply Forall_forall. intros q Hq. apply in_map_iff in Hq as (p & <- & Hp). cbn. now apply R. }
  unfold first_pass in E1 at 1. rewrite E1. cbn [bind]. rewrite assign_all_pairs.
  destruct (assign_pairs (second_pass idx) l1) as (l2 & E2 & L2 & G2).
  { apply Forall_forall. intros q Hq. apply in_map_iff in Hq as (p & <- & Hp). cbn. rewrite L1. now apply R. }
  unfold second_pass in E2 at 1. rewrite E2. exists l2. split; [reflexivity|]. split; [congruence|].
  intros p Hp. rewrite G2, G1, get_v by congruence.
  destruct (assigned p (second_pass idx)); [reflexivity|]. destruct (assigned p (first_pass idx)); reflexivity.
Qed.

Lemma second_out : forall idx p, ~ In p idx -> assigned p (second_pass idx) = None.
Proof.
  intros idx p H. apply assigned_none. intros q Hq. apply in_map_iff in Hq as ((a & b) & <- & Hp).
  apply in_pairs2 in Hp. cbn. intros ->. tauto.
Qed.
Lemma first_out : forall idx p, ~ In p idx -> assigned p (first_pass idx) = None.
Proof.
  intros idx p H. apply assigned_none. intros q Hq. apply in_map_iff in Hq as ((a & b) & <- & Hp).
  apply in_pairs2 in Hp. cbn. intros ->. tauto.
Qed.
Lemma second_head : forall x t, ~ In x t -> assigned x (second_pass (x :: t)) = None.
Proof.
  intros x t H. apply assigned_none. intros q Hq. apply in_map_iff in Hq as ((a & b) & <- & Hp).
  cbn in Hp. apply in_app_iff in Hp as [Hp|Hp].
  - apply in_map_iff in Hp as (y & Q & Hy). injection Q as <- <-. cbn. intros ->; contradiction.
  - apply in_pairs2 in Hp. cbn. intros ->. tauto.
Qed.
Lemma second_tail : forall t x, NoDup (x :: t) ->
  map (fun p => assigned p (second_pass (x :: t))) t = map (fun a => Some (v a)) (removelast (x :: t)).
Proof.
  induction t as [|y t IH]; intros x N; [reflexivity|].
  inversion N as [|? ? Nx Nt]; subst. inversion Nt as [|? ? Ny Nt']; subst.
  assert (D : forall p, In p (y :: t) -> assigned p (map (fun q => (snd q, v (fst q))) (map (pair x) (y :: t))) = Some (v x)).
  { clear. intros p H. rewrite map_map. cbn [fst snd]. revert H. generalize (y :: t) as l.
    induction l as [|z l IH]; intros H; [destruct H|]. cbn. destruct H as [->|H].
    - destruct (assigned p (map (fun x0 => (x0, v x)) l)) as [u|] eqn:Q; [|now rewrite Nat.eqb_refl].
      clear IH. induction l as [|z l IH]; [discriminate|]. cbn in Q.
      destruct (assigned p (map (fun x0 => (x0, v x)) l)); [now apply IH|].
      destruct (z =? p); congruence.
    - now rewrite (IH H). }
  assert (S2 : forall p, second_pass (x :: y :: t) = map (fun q => (snd q, v (fst q))) (map (pair x) (y :: t)) ++ second_pass (y :: t)
    /\ assigned p (second_pass (x :: y :: t)) = match assigned p (second_pass (y :: t)) with Some u => Some u
       | None => assigned p (map (fun q => (snd q, v (fst q))) (map (pair x) (y :: t))) end).
  { intros p. assert (Q : second_pass (x :: y :: t) = map (fun q => (snd q, v (fst q))) (map (pair x) (y :: t)) ++ second_pass (y :: t)).
    { unfold second_pass. cbn [pairs2]. now rewrite map_app. }
    split; [exact Q|]. rewrite Q, assigned_app. reflexivity. }
  change (removelast (x :: y :: t)) with (x :: removelast (y :: t)). cbn [map]. f_equal.
  - rewrite (proj2 (S2 y)), second_head by exact Ny. apply D; now left.
  - rewrite <- (IH y Nt). apply map_ext_in. intros p Hp. rewrite (proj2 (S2 p)).
    destruct (assigned p (second_pass (y :: t))) eqn:Q; [reflexivity|].
    exfalso. assert (X : In (assigned p (second_pass (y :: t))) (map (fun p => assigned p (second_pass (y :: t))) t)).
    { apply in_map_iff; eauto. }
    rewrite (IH y Nt), Q in X. apply in_map_iff in X as (a & X & _). discriminate.
Qed.
Lemma first_head : forall t x, t <> [] -> ~ In x t -> assigned x (first_pass (x :: t)) = Some (v (last t 0)).
Proof.
  intros t x Nt Nx. unfold first_pass. cbn [pairs2]. rewrite map_app, assigned_app.
  fold (first_pass t). rewrite first_out by exact Nx. rewrite map_map. cbn [fst snd]. clear Nx.
  induction t as [|y t IH]; [contradiction|]. destruct t as [|z t].
  - cbn. now rewrite Nat.eqb_refl.
  - change (map (fun x0 => (x, v x0)) (y :: z :: t)) with ((x, v y) :: map (fun x0 => (x, v x0)) (z :: t)).
    change (assigned x ((x, v y) :: map (fun x0 => (x, v x0)) (z :: t)))
      with (match assigned x (map (fun x0 => (x, v x0)) (z :: t)) with Some u => Some u
            | None => if x =? x then Some (v y) else None end).
    rewrite IH by discriminate. reflexivity.
Qed.

(** The values at the chosen positions move on cyclically, the others stay. *)
Lemma swap_rotates : forall x t l, t <> [] -> NoDup (x :: t) -> Forall (fun i => i < length path) (x :: t) ->
  swap_nodes path (x :: t) = Some l ->
  length l = length path /\
  map (get l) (x :: t) = map (fun i => Some (v i)) (last t 0 :: removelast (x :: t)) /\
  forall p, p < length path -> ~ In p (x :: t) -> get l p = Some (v p).
Proof.
  intros x t l Nt N F E. destruct (swap_nodes_ok (x :: t) F) as (l' & E' & L & G).
  rewrite E in E'; injection E' as <-. inversion N as [|? ? Nx N']; subst. inversion F as [|? ? Fx F']; subst.
  split; [exact L|]. split.
  - cbn [map]. f_equal.
    + rewrite G by exact Fx. now rewrite second_head, first_head.
    + rewrite <- (second_tail t x N). apply map_ext_in. intros p Hp.
      rewrite G by (rewrite Forall_forall in F'; auto).
      destruct (assigned p (second_pass (x :: t))) eqn:Q; [reflexivity|].
      exfalso. assert (X : In (assigned p (second_pass (x :: t))) (map (fun p => assigned p (second_pass (x :: t))) t)).
      { apply in_map_iff; eauto. }
      rewrite (second_tail t x N), Q in X. apply in_map_iff in X as (a & X & _). discriminate.
  - intros p Hp Np. rewrite G by exact Hp. now rewrite second_out, first_out.
Qed.
End Swap.

Lemma rotate_right_perm : forall (l : list nat), l <> [] -> Permutation (last l 0 :: removelast l) l.
Proof.
  intros l H. rewrite (app_removelast_last 0 H) at 3. apply Permutation_cons_append.
Qed.
Lemma list_as_map : forall (l : list nat), l = map (fun i => nth i l 0) (seq 0 (length l)).
Proof.
  intros l. apply list_ext_get; [now rewrite map_length, seq_length|].
  intros i. rewrite get_map. destruct (Nat.lt_ge_cases i (length l)) as [H|H].
  - unfold get. rewrite (nth_error_nth' (seq 0 (length l)) 0) by now rewrite seq_length.
    rewrite seq_nth by exact H. cbn. now apply nth_error_nth'.
  - unfold get. rewrite (proj2 (nth_error_None l i) H).
    rewrite (proj2 (nth_error_None (seq 0 (length l)) i)); [reflexivity|now rewrite seq_length].
Qed.
(** two lists that agree outside some positions and hold the same values there *)
Lemma perm_at : forall (l l' idx : list nat), length l' = length l -> NoDup idx ->
  Forall (fun i => i < length l) idx ->
  Permutation (map (fun i => nth i l' 0) idx) (map (fun i => nth i l 0) idx) ->
  (forall p, p < length l -> ~ In p idx -> nth p l' 0 = nth p l 0) ->
  Permutation l' l.
Proof.
  intros l l' idx L N F P G.
  assert (S : exists r, Permutation (seq 0 (length l)) (idx ++ r)).
  { apply take_out; [exact N|]. intros i Hi. apply in_seq. rewrite Forall_forall in F. specialize (F i Hi). lia. }
  destruct S as (r & S).
  rewrite (list_as_map l), (list_as_map l'), L.
  eapply Permutation_trans; [apply Permutation_map, S|].
  apply Permutation_sym. eapply Permutation_trans; [apply Permutation_map, S|].
  rewrite !map_app. apply Permutation_app; [now apply Permutation_sym|].
  replace (map (fun i => nth i l 0) r) with (map (fun i => nth i l' 0) r); [apply Permutation_refl|].
  apply map_ext_in. intros p Hp.
  assert (X : In p (seq 0 (length l))).
  { apply Permutation_sym in S. eapply Permutation_in; [exact S|]. apply in_or_app; now right. }
  apply in_seq in X. apply G; [lia|]. intros Q.
  assert (ND : NoDup (idx ++ r)) by (eapply Permutation_NoDup; [exact S|apply seq_NoDup]).
  clear -ND Q Hp. induction idx as [|i idx IH]; [destruct Q|].
  inversion ND as [|? ? N1 N2]; subst. destruct Q as [->|Q]; [|auto].
  apply N1, in_or_app; now right.
Qed.

Lemma swap_perm : forall path idx l, 2 <= length idx -> NoDup idx -> Forall (fun i => i < length path) idx ->
  swap_nodes path idx = Some l -> Permutation l path.
Proof.
  intros path [|x t] l H N F E; [cbn in H; lia|].
  assert (Nt : t <> []) by (intros ->; cbn in H; lia).
  destruct (swap_rotates path x t l Nt N F E) as (L & M & O).
  apply (perm_at path l (x :: t) L N F).
  - assert (M' : map (fun i => nth i l 0) (x :: t) = map (fun i => nth i path 0) (last t 0 :: removelast (x :: t))).
    { assert (X : map (fun i => Some (nth i l 0)) (x :: t) = map (get l) (x :: t)).
      { apply map_ext_in. intros i Hi. unfold get. symmetry. apply nth_error_nth'. rewrite L.
        rewrite Forall_forall in F; auto. }
      rewrite M in X. rewrite <- (map_map (fun i => nth i l 0) Some), <- (map_map (fun i => nth i path 0) Some) in X.
      revert X. generalize (map (fun i => nth i l 0) (x :: t)) (map (fun i => nth i path 0) (last t 0 :: removelast (x :: t))).
      clear. intros a; induction a as [|u a IH]; intros [|w b] X; try discriminate; [reflexivity|].
      cbn in X. injection X as -> X. f_equal; auto. }
    rewrite M'. apply Permutation_map. destruct t as [|y t]; [contradiction|].
    change (last (y :: t) 0) with (last (x :: y :: t) 0). apply rotate_right_perm. discriminate.
  - intros p Hp Np. specialize (O p Hp Np). unfold get in O. symmetry in O. symmetry.
    rewrite <- (nth_error_nth l p 0 (eq_sym O)). reflexivity.
Qed.

(** ** Candidates *)
From Coq Require Import Sorted.

Lemma in_combinations_seq : forall m s k idx,
  In idx (combinations (seq s m) k) <->
  length idx = k /\ StronglySorted lt idx /\ Forall (fun i => s <= i < s + m) idx.
Proof.
  induction m as [|m IH]; intros s [|k] idx.
  - cbn. split; [intros [<-|[]]; repeat constructor|]. intros (L & _). destruct idx; [now left|discriminate].
  - cbn. split; [tauto|]. intros (L & _ & F). destruct idx as [|i idx]; [discriminate|].
    inversion F; lia.
  - cbn. split; [intros [<-|[]]; repeat constructor|]. intros (L & _). destruct idx; [now left|discriminate].
  - change (combinations (seq s (S m)) (S k)) with
      (map (cons s) (combinations (seq (S s) m) k) ++ combinations (seq (S s) m) (S k)).
    rewrite in_app_iff, IH, in_map_iff. split.
    + intros [(t & <- & H)|(L & S & F)].
      * apply IH in H as (L & S & F). repeat split.
        -- cbn; lia.
        -- constructor; [exact S|]. eapply Forall_impl; [|exact F]. cbn; intros; lia.
        -- constructor; [lia|]. eapply Forall_impl; [|exact F]. cbn; intros; lia.
      * repeat split; auto. eapply Forall_impl; [|exact F]. cbn; intros; lia.
    + intros (L & S & F). destruct idx as [|i idx]; [discriminate|].
      inversion F as [|? ? Fi F']; subst. inversion S as [|? ? S' Si]; subst.
      destruct (Nat.eq_dec i s) as [->|Ni].
      * left. exists idx. split; [reflexivity|]. apply IH. repeat split; [cbn in L; lia|exact S'|].
        rewrite Forall_forall in *. intros j Hj. specialize (Si j Hj). specialize (F' j Hj). lia.
      * right. repeat split; auto. constructor; [lia|].
        rewrite Forall_forall in *. intros j Hj. specialize (Si j Hj). specialize (F' j Hj). lia.
Qed.
Lemma sorted_nodup : forall l, StronglySorted lt l -> NoDup l.
Proof.
  induction l as [|x l IH]; intros H; [constructor|]. inversion H as [|? ? H1 H2]; subst.
  constructor; [|auto]. intros I. rewrite Forall_forall in H2. specialize (H2 x I). lia.
Qed.
Lemma combinations_some : forall n k, k <= n -> combinations (seq 0 n) k <> [].
Proof.
  intros n k H Q. assert (X : In (seq 0 k) (combinations (seq 0 n) k)).
  { apply in_combinations_seq. rewrite seq_length. repeat split.
    - clear. generalize 0. induction k as [|k IH]; intros s; [constructor|]. constructor; [apply IH|].
      apply Forall_forall. intros x Hx. apply in_seq in Hx. lia.
    - apply Forall_forall. intros x Hx. apply in_seq in Hx. lia. }
  rewrite Q in X. destruct X.
Qed.

Lemma k_opt_ok : forall path k, 2 <= k -> k + 2 <= length path ->
  exists cands, k_opt_paths path k = Some cands /\ cands <> [] /\
    forall c, In c cands <-> exists idx, length idx = k /\ StronglySorted lt idx /\
                               Forall (fun i => i < length path) idx /\ swap_nodes path idx = Some c.
Proof.
  intros path k H1 H2. unfold k_opt_paths.
  destruct (k <? 2) eqn:Q1; [apply Nat.ltb_lt in Q1; lia|].
  destruct (length path <? k + 2) eqn:Q2; [apply Nat.ltb_lt in Q2; lia|]. cbn [orb].
  destruct (mapM_all (swap_nodes path) (combinations (seq 0 (length path)) k)) as (r & E & L & I).
  { intros idx H. apply in_combinations_seq in H as (_ & _ & F).
    destruct (swap_nodes_ok path idx) as (l & El & _); [|eauto].
    eapply Forall_impl; [|exact F]. cbn; intros; lia. }
  exists r. split; [exact E|]. split.
  - intros ->. apply (combinations_some (length path) k); [lia|]. cbn in L. now apply length_zero_iff_nil.
  - intros c. rewrite I. split.
    + intros (idx & H & S). apply in_combinations_seq in H as (L1 & S1 & F1). exists idx. repeat split; auto.
      eapply Forall_impl; [|exact F1]. cbn; intros; lia.
    + intros (idx & L1 & S1 & F1 & S). exists idx. split; [|exact S]. apply in_combinations_seq. repeat split; auto.
      eapply Forall_impl; [|exact F1]. cbn; intros; lia.
Qed.
Lemma k_opt_perm : forall path k cands c, k_opt_paths path k = Some cands -> In c cands -> Permutation c path.
Proof.
  intros path k cands c H I.
  assert (R : 2 <= k /\ k + 2 <= length path).
  { unfold k_opt_paths in H. destruct (k <? 2) eqn:Q1; [discriminate|].
    destruct (length path <? k + 2) eqn:Q2; [discriminate|]. apply Nat.ltb_ge in Q1, Q2. lia. }
  destruct (k_opt_ok path k) as (cands' & E & _ & G); try tauto. rewrite H in E. injection E as <-.
  apply G in I as (idx & L & S & F & E). apply (swap_perm path idx c); auto using sorted_nodup. lia.
Qed.

Lemma get_mid : forall {A} (a b : list A) x, get (a ++ x :: b) (length a) = Some x.
Proof. intros. unfold get. now rewrite nth_error_app2, Nat.sub_diag by lia. Qed.
Lemma set_mid : forall {A} (a b : list A) x y, set (a ++ x :: b) (length a) y = Some (a ++ y :: b).
Proof.
  intros A a b x y. rewrite set_lt by (rewrite app_length; cbn; lia). f_equal.
  induction a as [|z a IH]; [reflexivity|]. cbn. now f_equal.
Qed.
Lemma get_split : forall {A} (l : list A) i, i < length l -> exists a x b, l = a ++ x :: b /\ i = length a.
Proof.
  intros A l i H. destruct (get_lt l i H) as (x & E). apply nth_error_split in E as (a & b & -> & L).
  exists a, x, b. auto.
Qed.
Lemma swap_two : forall a b c x y,
  swap_nodes (a ++ x :: b ++ y :: c) [length a; length (a ++ x :: b)] = Some (a ++ y :: b ++ x :: c).
Proof.
  intros a b c x y. unfold swap_nodes. cbn [combinations map app mapM get nth_error bind].
  fold (get (A := nat)).
  assert (R : forall u v, a ++ u :: b ++ v :: c = (a ++ u :: b) ++ v :: c)
    by (intros; rewrite <- app_assoc; reflexivity).
  change (nth_error (a ++ x :: b ++ y :: c)) with (get (a ++ x :: b ++ y :: c)).
  rewrite get_mid. rewrite (R x y), get_mid. cbn [bind]. unfold assign_all. cbn [combine foldM fst snd].
  rewrite <- (R x y), set_mid. cbn [bind]. rewrite (R y y).
  replace (length (a ++ x :: b)) with (length (a ++ y :: b)) by (rewrite !app_length; reflexivity).
  rewrite set_mid. cbn [bind]. now rewrite <- app_assoc.
Qed.
Lemma swap_three : forall a b c d x y z,
  swap_nodes (a ++ x :: b ++ y :: c ++ z :: d) [length a; length (a ++ x :: b); length (a ++ x :: b ++ y :: c)]
  = Some (a ++ z :: b ++ x :: c ++ y :: d).
Proof.
  intros a b c d x y z. unfold swap_nodes. cbn [combinations map app mapM get nth_error bind].
  change (nth_error (a ++ x :: b ++ y :: c ++ z :: d)) with (get (a ++ x :: b ++ y :: c ++ z :: d)).
  assert (R1 : forall u v w, a ++ u :: b ++ v :: c ++ w :: d = (a ++ u :: b) ++ v :: c ++ w :: d)
    by (intros; rewrite <- app_assoc; reflexivity).
  assert (R2 : forall u v w, a ++ u :: b ++ v :: c ++ w :: d = (a ++ u :: b ++ v :: c) ++ w :: d).
  { intros. rewrite <- app_assoc. cbn. rewrite <- app_assoc. reflexivity. }
  assert (L1 : forall u, length (a ++ x :: b) = length (a ++ u :: b)) by (intros; rewrite !app_length; reflexivity).
  assert (L2 : forall u v, length (a ++ x :: b ++ y :: c) = length (a ++ u :: b ++ v :: c))
    by (intros; rewrite !app_length; cbn; rewrite !app_length; reflexivity).
  assert (G1 : forall u v w, get (a ++ u :: b ++ v :: c ++ w :: d) (length a) = Some u) by (intros; apply get_mid).
  assert (G2 : forall u v w, get (a ++ u :: b ++ v :: c ++ w :: d) (length (a ++ x :: b)) = Some v)
    by (intros; rewrite (L1 u), R1; apply get_mid).
  assert (G3 : forall u v w, get (a ++ u :: b ++ v :: c ++ w :: d) (length (a ++ x :: b ++ y :: c)) = Some w)
    by (intros; rewrite (L2 u v), R2; apply get_mid).
  assert (S1 : forall u v w t, set (a ++ u :: b ++ v :: c ++ w :: d) (length a) t = Some (a ++ t :: b ++ v :: c ++ w :: d))
    by (intros; apply set_mid).
  assert (S2 : forall u v w t, set (a ++ u :: b ++ v :: c ++ w :: d) (length (a ++ x :: b)) t = Some (a ++ u :: b ++ t :: c ++ w :: d))
    by (intros; rewrite (L1 u), !R1; apply set_mid).
  assert (S3 : forall u v w t, set (a ++ u :: b ++ v :: c ++ w :: d) (length (a ++ x :: b ++ y :: c)) t = Some (a ++ u :: b ++ v :: c ++ t :: d))
    by (intros; rewrite (L2 u v), !R2; apply set_mid).
  rewrite G1, G2, G3. cbn [bind]. unfold assign_all. cbn [combine foldM fst snd].
  rewrite S1; cbn [bind]. rewrite S1; cbn [bind]. rewrite S2; cbn [bind].
  rewrite S2; cbn [bind]. rewrite S3; cbn [bind]. rewrite S3; cbn [bind]. reflexivity.
Qed.

Lemma two_opt_ok : forall path, 4 <= length path ->
  exists cands, k_opt_paths path 2 = Some cands /\ cands <> [] /\ forall c, In c cands <-> exchange2 path c.
Proof.
  intros path H. destruct (k_opt_ok path 2) as (cands & E & N & I); try lia.
  exists cands. split; [exact E|]. split; [exact N|]. intros c. rewrite I. clear I E. split.
  - intros ([|i [|j [|? ?]]] & L & S & F & Q); try discriminate. clear L.
    inversion S as [|? ? _ S']; inversion S' as [|? ? Lij _]; subst.
    inversion F as [|? ? _ F']; inversion F' as [|? ? Fj _]; subst.
    destruct (get_split path j Fj) as (a & y & d & -> & ->).
    destruct (get_split a i Lij) as (a' & x & b & -> & ->).
    rewrite <- app_assoc in Q. cbn [app] in Q. rewrite swap_two in Q. injection Q as <-.
    exists a', b, d, x, y. split; [now rewrite <- app_assoc|reflexivity].
  - intros (a & b & d & x & y & -> & ->). exists [length a; length (a ++ x :: b)].
    split; [reflexivity|]. split; [|split].
    + repeat constructor. rewrite app_length; cbn; lia.
    + repeat constructor; rewrite !app_length; cbn; rewrite !app_length; cbn; lia.
    + apply swap_two.
Qed.
Lemma three_opt_ok : forall path, 5 <= length path ->
  exists cands, k_opt_paths path 3 = Some cands /\ cands <> [] /\ forall c, In c cands <-> exchange3 path c.
Proof.
  intros path H. destruct (k_opt_ok path 3) as (cands & E & N & I); try lia.
  exists cands. split; [exact E|]. split; [exact N|]. intros c. rewrite I. clear I E. split.
  - intros ([|i [|j [|k [|? ?]]]] & L & S & F & Q); try discriminate. clear L.
    inversion S as [|? ? S' Li]; inversion S' as [|? ? _ Ljk]; subst.
    inversion Li as [|? ? Lij _]; inversion Ljk as [|? ? Ljk' _]; subst.
    inversion F as [|? ? _ F']; inversion F' as [|? ? _ F'']; inversion F'' as [|? ? Fk _]; subst.
    destruct (get_split path k Fk) as (a & z & d & -> & ->).
    destruct (get_split a j Ljk') as (a' & y & c' & -> & ->).
    destruct (get_split a' i Lij) as (a'' & x & b & -> & ->).
    rewrite <- !app_assoc in Q. cbn [app] in Q. rewrite swap_three in Q. injection Q as <-.
    exists a'', b, c', d, x, y, z. split; [now rewrite <- !app_assoc|reflexivity].
  - intros (a & b & c' & d & x & y & z & -> & ->).
    exists [length a; length (a ++ x :: b); length (a ++ x :: b ++ y :: c')].
    split; [reflexivity|]. split; [|split].
    + repeat constructor; rewrite ?app_length; cbn; rewrite ?app_length; cbn; lia.
    + repeat constructor; rewrite !app_length; cbn; rewrite !app_length; cbn; rewrite ?app_length; cbn; lia.
    + apply swap_three.
Qed.

(** ** Choosing the best candidate *)
Lemma best_of : forall E cost (len : list nat -> Qc) cands t,
  (forall c, In c cands -> tour_cost E cost c = Some (Fin (len c))) ->
  exists t', foldM (fun (st : list nat * num) cand =>
      c <- tour_cost E cost cand ;; Some (if nlt c (snd st) then (cand, c) else st)) cands (t, Fin (len t))
    = Some (t', Fin (len t')) /\ (t' = t \/ In t' cands) /\ (len t' <= len t)%Qc /\
      forall c, In c cands -> (len t' <= len c)%Qc.
Proof.
  intros E cost len cands t H.
  match goal with |- context [foldM ?b ?l ?s] => destruct (foldM_ind b (fun done st =>
    exists t', st = (t', Fin (len t')) /\ (t' = t \/ In t' done) /\ (len t' <= len t)%Qc /\
      forall c, In c done -> (len t' <= len c)%Qc) l s) as (st & -> & t' & -> & A & B & D) end.
  - exists t. split; [reflexivity|]. split; [now left|]. split; [qlra|intros c []].
  - intros done a rest s Q (t' & -> & A & B & D).
    rewrite H by (rewrite Q; apply in_or_app; right; now left). cbn [bind snd].
    eexists; split; [reflexivity|]. cbn [nlt]. destruct (qltb (len a) (len t')) eqn:L.
    + apply qltb_true in L. exists a. split; [reflexivity|]. split; [right; apply in_or_app; right; now left|].
      split; [qlra|]. intros c Hc. apply in_app_iff in Hc as [Hc|[<-|[]]]; [specialize (D c Hc)|]; qlra.
    + apply qltb_false in L. exists t'. split; [reflexivity|].
      split; [destruct A as [->|A]; [now left|right; apply in_or_app; now left]|]. split; [exact B|].
      intros c Hc. apply in_app_iff in Hc as [Hc|[<-|[]]]; [exact (D c Hc)|exact L].
  - exists t'. auto.
Qed.

Lemma perform_ok : forall E cost (len : list nat -> Qc) t, 5 <= length t ->
  (forall c, Permutation c t -> tour_cost E cost c = Some (Fin (len c))) ->
  exists mid t', perform_k_opt E cost t (Fin (len t)) = Some (t', Fin (len t')) /\
    (mid = t \/ exchange3 t mid) /\ (t' = mid \/ exchange2 mid t') /\
    (len mid <= len t)%Qc /\ (len t' <= len mid)%Qc /\
    (forall c, exchange3 t c -> (len mid <= len c)%Qc) /\ (forall c, exchange2 mid c -> (len t' <= len c)%Qc).
Proof.
  intros E cost len t H HC. unfold perform_k_opt. cbn [foldM fst].
  destruct (three_opt_ok t H) as (cands & -> & N & I). cbn [bind].
  destruct cands as [|c0 cands0] eqn:Qc0; [contradiction|]. rewrite <- Qc0 in *.
  replace (get cands 0) with (Some c0) by (rewrite Qc0; reflexivity). cbn [bind].
  destruct (best_of E cost len cands t) as (mid & -> & A & B & D).
  { intros c Hc. apply I in Hc. apply HC. apply Permutation_sym. now apply exchange3_perm. }
  cbn [bind fst].
  assert (A' : mid = t \/ exchange3 t mid) by (destruct A as [A|A]; [now left|right; now apply I]).
  assert (Pm : Permutation mid t).
  { destruct A' as [->|A']; [apply Permutation_refl|apply Permutation_sym; now apply exchange3_perm]. }
  destruct (two_opt_ok mid) as (cands2 & -> & N2 & I2).
  { apply Permutation_length in Pm. lia. }
  cbn [bind]. destruct cands2 as [|c2 cands20] eqn:Qc2; [contradiction|]. rewrite <- Qc2 in *.
  replace (get cands2 0) with (Some c2) by (rewrite Qc2; reflexivity). cbn [bind].
  destruct (best_of E cost len cands2 mid) as (t' & -> & A2 & B2 & D2).
  { intros c Hc. apply I2 in Hc. apply HC. eapply Permutation_trans; [|exact Pm].
    apply Permutation_sym. now apply exchange2_perm. }
  cbn [bind]. exists mid, t'. split; [reflexivity|]. split; [exact A'|].
  split; [destruct A2 as [A2|A2]; [now left|right; now apply I2]|].
  split; [exact B|]. split; [exact B2|]. split; [intros c Hc; apply D; now apply I|intros c Hc; apply D2; now apply I2].
Qed.

(** Without any assumption on the costs. *)
Lemma perform_any : forall E cost t c t' c', perform_k_opt E cost t c = Some (t', c') ->
  5 <= length t /\ Permutation t' t /\ (t' = t /\ c' = c \/ tour_cost E cost t' = Some c' /\ nlt c' c = true).
Proof.
  intros E cost t c t' c' H. unfold perform_k_opt in H.
  assert (ST : forall k st st', (cands <- k_opt_paths (fst st) k ;; _ <- get cands 0 ;;
      foldM (fun (st : list nat * num) cand => c <- tour_cost E cost cand ;;
        Some (if nlt c (snd st) then (cand, c) else st)) cands st) = Some st' ->
      k + 2 <= length (fst st) /\ Permutation (fst st') (fst st) /\
      (st' = st \/ tour_cost E cost (fst st') = Some (snd st') /\ nlt (snd st') (snd st) = true)).
  { intros k st st' Q. apply bind_Some in Q as (cands & K & Q). apply bind_Some in Q as (x & _ & Q).
    split.
    { unfold k_opt_paths in K. destruct (k <? 2); [discriminate|].
      destruct (length (fst st) <? k + 2) eqn:L; [discriminate|]. apply Nat.ltb_ge in L. lia. }
    assert (P : forall cand, In cand cands -> Permutation cand (fst st)) by (intros; now apply (k_opt_perm _ k cands)).
    assert (TR : forall a b d : num, nlt a b = true -> nlt b d = true -> nlt a d = true).
    { intros [x1| | |] [x2| | |] [x3| | |]; cbn; try congruence. rewrite !qltb_true. qlra. }
    clear K. assert (G : forall cands st0, (forall cand, In cand cands -> Permutation cand (fst st)) ->
      Permutation (fst st0) (fst st) ->
      (st0 = st \/ tour_cost E cost (fst st0) = Some (snd st0) /\ nlt (snd st0) (snd st) = true) ->
      foldM (fun (st : list nat * num) cand => c <- tour_cost E cost cand ;;
        Some (if nlt c (snd st) then (cand, c) else st)) cands st0 = Some st' ->
      Permutation (fst st') (fst st) /\
      (st' = st \/ tour_cost E cost (fst st') = Some (snd st') /\ nlt (snd st') (snd st) = true)).
    { clear Q P x cands. intros cands; induction cands as [|a cs IH]; intros st0 Pc P0 I0 Q.
      - injection Q as <-. auto.
      - cbn [foldM] in Q. apply bind_Some in Q as (s1 & Q1 & Q). apply bind_Some in Q1 as (ca & Ca & Q1).
          injection Q1 as <-. revert Q. apply IH.
        + intros; apply Pc; now right.
        + destruct (nlt ca (snd st0)); [apply Pc; now left|exact P0].
        + destruct (nlt ca (snd st0)) eqn:L; [|exact I0]. right. cbn [fst snd]. split; [exact Ca|].
            destruct I0 as [->|(_ & I0)]; [exact L|]. eapply TR; eauto.
    }
    apply (G cands st); auto. }
  cbn [foldM] in H. apply bind_Some in H as (s1 & H1 & H). apply bind_Some in H as (s2 & H2 & H).
  injection H as ->. apply ST in H1 as (L1 & P1 & I1). apply ST in H2 as (_ & P2 & I2). cbn [fst snd] in *.
  split; [exact L1|]. split; [eapply Permutation_trans; eauto|].
  destruct I2 as [<- | (C2 & N2)]; cbn [fst snd] in *.
  - destruct I1 as [I1|I1]; [left; now injection I1|right; exact I1].
  - right. split; [exact C2|]. destruct I1 as [->|(_ & N1)]; [exact N2|].
    revert N2 N1. generalize (snd s1). clear. intros m.
    destruct c' as [x1| | |], m as [x2| | |], c as [x3| | |]; cbn; try congruence. rewrite !qltb_true. qlra.
Qed.
