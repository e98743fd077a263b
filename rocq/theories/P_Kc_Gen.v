(** * Team generation: proofs. *)
From Verif Require Import Num Arr ArrFacts M_Tsp_Run M_Ksat_Py M_Tsp_Post M_Kc_Py SpecKc.
From Verif Require Import P_Ksat_Py.
Local Open Scope nat_scope.

(** ** Pruning *)
Definition prune_check (n : nat) : bool :=
  match prune_teams n with
  | None => false
  | Some cs =>
      forallb (fun u => edge_mem (u, u) cs && forallb (fun v => edge_mem (u, v) cs || edge_mem (v, u) cs) (units n)) (units n)
      && forallb (fun c => mem (fst c) (units n) && mem (snd c) (units n)) cs
  end.
Lemma prune_checked n : n <= 11 -> prune_check n = true.
Proof.
  intro H.
  do 12 (destruct n as [|n]; [vm_compute; reflexivity|]). lia.
Qed.
Lemma edge_eqb_eq a b : edge_eqb a b = true <-> a = b.
Proof.
  unfold edge_eqb. destruct a as [a1 a2], b as [b1 b2]; cbn.
  rewrite andb_true_iff, !Nat.eqb_eq. split; [intros [-> ->]; auto | intro E; injection E as -> ->; auto].
Qed.
Lemma edge_mem_In e l : edge_mem e l = true <-> In e l.
Proof.
  unfold edge_mem. rewrite existsb_exists. split.
  - intros (x & Hin & E). apply edge_eqb_eq in E. subst; auto.
  - intro H. exists e. split; auto. apply edge_eqb_eq; auto.
Qed.
Lemma mem_iff x l : mem x l = true <-> In x l.
Proof. split; [apply mem_In|]. intro H. destruct (mem x l) eqn:E; auto. apply mem_not_In in E. tauto. Qed.
Lemma prune_ok n : n <= 11 -> exists cs, prune_teams n = Some cs /\
  (forall u, 1 <= u <= n -> In (u, u) cs) /\
  (forall u v, 1 <= u <= n -> 1 <= v <= n -> In (u, v) cs \/ In (v, u) cs) /\
  (forall u v, In (u, v) cs -> 1 <= u <= n /\ 1 <= v <= n).
Proof.
  intro H. pose proof (prune_checked n H) as C. unfold prune_check in C.
  destruct (prune_teams n) as [cs|]; [|discriminate].
  apply andb_true_iff in C as [C1 C2]. rewrite forallb_forall in C1, C2.
  exists cs. split; auto. split; [|split].
  - intros u Hu. specialize (C1 u). rewrite andb_true_iff in C1. apply edge_mem_In, C1.
    unfold units. apply in_seq. lia.
  - intros u v Hu Hv. specialize (C1 u). rewrite andb_true_iff in C1.
    destruct C1 as [_ C1]; [unfold units; apply in_seq; lia|]. rewrite forallb_forall in C1.
    specialize (C1 v). rewrite orb_true_iff, !edge_mem_In in C1. apply C1. unfold units. apply in_seq. lia.
  - intros u v Hin. specialize (C2 _ Hin). cbn [fst snd] in C2. rewrite andb_true_iff, !mem_iff in C2.
    unfold units in C2. rewrite !in_seq in C2. lia.
Qed.
Lemma mapM_None {A B} (f : A -> option B) l a : In a l -> f a = None -> mapM f l = None.
Proof.
  induction l as [|x l IH]; cbn; [tauto|]. intros [-> |Hin] E.
  - rewrite E. reflexivity.
  - destruct (f x); cbn [bind]; auto. rewrite IH; auto.
Qed.
Lemma in_pairs_in {A} (l1 l2 l3 : list A) a b : In (a, b) (pairs_in (l1 ++ a :: l2 ++ b :: l3)).
Proof.
  induction l1 as [|x l1 IH]; cbn.
  - apply in_or_app. left. apply in_map. apply in_or_app. right. left. auto.
  - apply in_or_app. auto.
Qed.
Lemma prune_too_many n : 12 <= n -> prune_teams n = None.
Proof.
  intro H. unfold prune_teams. rewrite (mapM_None _ _ (1, 12)); auto.
  assert (E : units n = [] ++ 1 :: seq 2 10 ++ 12 :: seq 13 (n - 12)).
  { unfold units. replace n with (11 + S (n - 12)) at 1 by lia. rewrite seq_app. reflexivity. }
  rewrite E. apply in_pairs_in.
Qed.

(** ** Sizes *)
Section Sizes.
Variable caps : list nat.
Notation D := (length caps).
Definition count_fn (t : team) : nat :=
  match team_case caps (t_u t) (t_v t) (t_type t) with Some (k, _) => k | None => 0 end.
(** entries a department gets for a block, in both cases *)
Definition block (t : team) (d : nat) : list nat :=
  if count_fn t =? 0 then
    if ((t_u t =? t_v t) || negb (snd (members (t_type t)) =? 0)) && ((d =? t_u t) || (d =? t_v t)) then [need d t] else []
  else repeat (need d t) (count_fn t).
Definition in_range (t : team) : Prop := 1 <= t_u t <= D /\ 1 <= t_v t <= D /\ 1 <= t_type t <= 5.

Lemma type_cases ty : 1 <= ty <= 5 -> ty = 1 \/ ty = 2 \/ ty = 3 \/ ty = 4 \/ ty = 5.
Proof. lia. Qed.
Lemma get_cap u : 1 <= u <= D -> get caps (u - 1) = Some (nth (u - 1) caps 0).
Proof. intro H. unfold get. apply nth_error_nth'. lia. Qed.

Lemma count_ok t : in_range t -> team_count caps t (count_fn t).
Proof.
  destruct t as [[u v] ty]. intros (Hu & Hv & Ht). unfold count_fn, in_range in *. cbn [t_u t_v t_type fst snd] in *.
  unfold team_case. rewrite !get_cap by auto. cbn [bind].
  set (nu := nth (u - 1) caps 0). set (nv := nth (v - 1) caps 0).
  assert (Fit : forall k, fits caps k (u, v, ty) <-> k * need u (u, v, ty) <= nu /\ k * need v (u, v, ty) <= nv).
  { intro k. split.
    - intro F. split; [apply (F u)|apply (F v)]; auto.
    - intros [F1 F2] d Hd. unfold need in *. cbn [t_u t_v t_type fst snd] in *.
      destruct (Nat.eqb_spec d u) as [-> |].
      + rewrite Nat.eqb_refl in F1. auto.
      + destruct (Nat.eqb_spec d v) as [-> |]; [|lia].
        rewrite Nat.eqb_refl in F2. destruct (Nat.eqb_spec v u); [congruence|]. auto. }
  unfold team_count. rewrite !Fit. unfold sensible, need. cbn [t_u t_v t_type fst snd].
  rewrite !Nat.eqb_refl. rewrite (Nat.eqb_sym v u).
  pose proof (Nat.div_mod nu 2). pose proof (Nat.div_mod nu 3). pose proof (Nat.div_mod nu 4).
  pose proof (Nat.div_mod nv 2).
  pose proof (Nat.mod_upper_bound nu 2). pose proof (Nat.mod_upper_bound nu 3).
  pose proof (Nat.mod_upper_bound nu 4). pose proof (Nat.mod_upper_bound nv 2).
  destruct (type_cases ty Ht) as [-> |[-> |[-> |[-> | ->]]]]; cbn [get nth_error fighters_count weasels_count Nat.sub bind members fst snd];
    (destruct (Nat.eqb_spec u v) as [-> |Huv]; cbn [fst snd]; [left; subst nu nv|]).
  all: try (right; lia).
  all: try (left; lia).
  all: try lia.
Qed.
End Sizes.

(** ** Folds *)
Fixpoint assoc (d : nat) (l : list (nat * nat)) : option nat :=
  match l with [] => None | (k, w) :: l => if d =? k then Some w else assoc d l end.
Lemma assoc_none d l : assoc d l = None <-> ~ In d (map fst l).
Proof.
  induction l as [|[k w] l IH]; cbn; [tauto|]. destruct (Nat.eqb_spec d k).
  - split; [discriminate|]. intro H. exfalso. apply H. auto.
  - rewrite IH. intuition congruence.
Qed.
Definition extra (x : option nat) (size : nat) : list nat :=
  match x with Some w => copies w size | None => [] end.
Lemma push_ok {A} D (m : list (list A)) d x size : length m = D -> 1 <= d <= D ->
  exists m', push m d x size = Some m' /\ length m' = D /\
    (forall k, nth k m' [] = if k =? d - 1 then nth k m [] ++ copies x size else nth k m []).
Proof.
  intros L Hd. unfold push. unfold get. rewrite (nth_error_nth' m []) by lia. cbn [bind].
  rewrite set_lt by lia. eexists. split; [reflexivity|]. split; [rewrite upd_length; auto|].
  intro k. destruct (Nat.eqb_spec k (d - 1)) as [-> |Hk].
  - apply nth_error_nth. apply (get_upd_eq m); lia.
  - destruct (Nat.lt_ge_cases k (length m)).
    + apply nth_error_nth. change (get (upd m (d - 1) (nth (d - 1) m [] ++ copies x size)) k = Some (nth k m [])).
      rewrite get_upd_ne by auto. apply nth_error_nth'; auto.
    + rewrite !nth_overflow; auto. rewrite upd_length; auto.
Qed.
Lemma place_all D size ty l : forall g, length (gen_weights g) = D -> length (gen_types g) = D ->
  NoDup (map fst l) -> (forall d, In d (map fst l) -> 1 <= d <= D) ->
  exists g', foldM (place size ty) l g = Some g' /\ gen_reward g' = gen_reward g /\
    length (gen_weights g') = D /\ length (gen_types g') = D /\
    (forall d, 1 <= d <= D ->
       nth (d - 1) (gen_weights g') [] = nth (d - 1) (gen_weights g) [] ++ extra (assoc d l) size) /\
    (forall d, 1 <= d <= D ->
       nth (d - 1) (gen_types g') [] =
       nth (d - 1) (gen_types g) [] ++ repeat ty (length (extra (assoc d l) size))).
Proof.
  induction l as [|[k w] l IH]; intros g L1 L2 ND Hin.
  - exists g. cbn. repeat split; auto; intros; rewrite app_nil_r; auto.
  - cbn [map fst] in *. inversion ND as [|? ? Nk ND']; subst.
    unfold foldM; fold (foldM (place size ty)). unfold place at 1. cbn [fst snd].
    destruct (push_ok (length (gen_weights g)) (gen_weights g) k w size) as (ws & E1 & Lw & Rw); auto; [apply Hin; left; auto|].
    destruct (push_ok (length (gen_weights g)) (gen_types g) k ty size) as (ts & E2 & Lt & Rt); auto; [apply Hin; left; auto|].
    rewrite E1; cbn [bind]; rewrite E2; cbn [bind].
    destruct (IH {| gen_reward := gen_reward g; gen_weights := ws; gen_types := ts |})
      as (g' & E & R & G1 & G2 & G3 & G4); auto; [intros; apply Hin; right; auto|].
    exists g'. split; [exact E|]. split; [exact R|]. split; auto. split; auto.
    assert (Hk : 1 <= k <= length (gen_weights g)) by (apply Hin; left; auto).
    split; intros d Hd.
    + rewrite G3 by auto. cbn [gen_weights]. rewrite Rw. cbn [assoc].
      destruct (Nat.eqb_spec d k) as [-> |Hne].
      * rewrite Nat.eqb_refl. rewrite (proj2 (assoc_none k l)) by auto. cbn [extra]. rewrite app_nil_r. reflexivity.
      * destruct (Nat.eqb_spec (d - 1) (k - 1)); [lia|]. reflexivity.
    + rewrite G4 by auto. cbn [gen_types]. rewrite Rt. cbn [assoc].
      destruct (Nat.eqb_spec d k) as [-> |Hne].
      * rewrite Nat.eqb_refl. rewrite (proj2 (assoc_none k l)) by auto. cbn [extra length repeat]. rewrite app_nil_r.
        f_equal. unfold copies. cbn [length repeat]. rewrite repeat_length. reflexivity.
      * destruct (Nat.eqb_spec (d - 1) (k - 1)); [lia|]. reflexivity.
Qed.

Lemma copies_repeat {A} (x : A) k : k <> 0 -> copies x k = repeat x k.
Proof. destruct k; [tauto|]. intros _. unfold copies. cbn. rewrite Nat.sub_0_r. reflexivity. Qed.

Section Gen.
Variable caps : list nat.
Notation D := (length caps).
Hypothesis HD : D <= 11.

Lemma team_case_ok t : in_range caps t ->
  exists placed, team_case caps (t_u t) (t_v t) (t_type t) = Some (count_fn caps t, placed) /\
    NoDup (map fst placed) /\
    (forall d, In d (map fst placed) <->
       (t_u t = t_v t \/ snd (members (t_type t)) <> 0) /\ (d = t_u t \/ d = t_v t)) /\
    (forall d w, assoc d placed = Some w -> w = need d t) /\
    (~ (t_u t = t_v t \/ snd (members (t_type t)) <> 0) -> count_fn caps t = 0).
Proof.
  clear HD. destruct t as [[u v] ty]. intros (Hu & Hv & Ht). unfold count_fn. cbn [t_u t_v t_type fst snd] in *.
  unfold team_case. rewrite !get_cap by auto. cbn [bind]. unfold need. cbn [t_u t_v t_type fst snd].
  assert (N1 : forall a : nat, NoDup [a]) by (intro; constructor; auto; constructor).
  assert (N2 : forall a b : nat, a <> b -> NoDup [a; b]).
  { intros a b Hab. constructor; [|auto]. cbn. intuition. }
  destruct (type_cases ty Ht) as [-> |[-> |[-> |[-> | ->]]]]; cbn [get nth_error fighters_count weasels_count Nat.sub bind members fst snd];
    (destruct (Nat.eqb_spec u v) as [-> |Huv]; cbn [fst snd]).
  all: eexists; split; [reflexivity|]; cbn [map fst In assoc];
    split; [try apply N1; try (apply N2; auto); constructor|];
    split; [intro d; intuition lia|];
    split; [|lia].
  all: intros d w.
  all: repeat match goal with |- context [?a =? ?b] => destruct (Nat.eqb_spec a b); subst end;
    intro E; try discriminate; try (injection E as <-); auto; try congruence; try lia.
Qed.

Definition others_of (u v : nat) : list (nat * nat) :=
  map (fun d => (d, 0)) (filter (fun d => negb (d =? u) && negb (d =? v)) (units D)).
Lemma others_fst u v : map fst (others_of u v) = filter (fun d => negb (d =? u) && negb (d =? v)) (units D).
Proof. unfold others_of. rewrite map_map. cbn. apply map_id. Qed.
Lemma assoc_others d u v : 1 <= d <= D ->
  assoc d (others_of u v) = if (d =? u) || (d =? v) then None else Some 0.
Proof.
  clear HD. intro Hd. destruct ((d =? u) || (d =? v)) eqn:E.
  - apply assoc_none. rewrite others_fst, filter_In, <- negb_orb, E. cbn. intuition discriminate.
  - destruct (assoc d (others_of u v)) eqn:A.
    + f_equal. unfold others_of in A. clear - A. induction (filter _ _) as [|x l IH]; cbn in A; [discriminate|].
      destruct (d =? x); [injection A as <-; auto|auto].
    + apply assoc_none in A. exfalso. apply A. rewrite others_fst, filter_In, <- negb_orb, E.
      split; auto. unfold units. apply in_seq. lia.
Qed.
Lemma get11 {A} (l : list A) i : length l = 11 -> i < 11 -> exists x, get l i = Some x.
Proof. intros L H. unfold get. destruct (nth_error l i) eqn:E; eauto. apply nth_error_None in E. lia. Qed.
Lemma reward_ok t : in_range caps t -> exists r, team_reward (t_u t) (t_v t) (t_type t) = Some r.
Proof.
  intros (Hu & Hv & Ht). unfold team_reward, get2.
  destruct (get11 distance_metric (t_v t - 1)) as (row & Er); [reflexivity|lia|]. rewrite Er. cbn [bind].
  assert (Lr : length row = 11).
  { assert (F : Forall (fun r => length r = 11) distance_metric) by (repeat constructor).
    rewrite Forall_forall in F. apply F. eapply nth_error_In; eauto. }
  destruct (get11 row (t_u t - 1)) as (x & Ex); [auto|lia|]. rewrite Ex. cbn [bind].
  destruct (get11 F_u (t_u t - 1)) as (f & Ef); [reflexivity|lia|]. rewrite Ef. cbn [bind].
  destruct (get11 W_u (t_v t - 1)) as (w & Ew); [reflexivity|lia|]. rewrite Ew. cbn [bind]. eauto.
Qed.

(** state of the generator: what is in the rows after the blocks [bs] *)
Definition rows (g g' : gen) (bs : list team) : Prop :=
  length (gen_weights g') = D /\ length (gen_types g') = D /\
  (forall d, 1 <= d <= D -> nth (d - 1) (gen_weights g') [] =
     nth (d - 1) (gen_weights g) [] ++ flat_map (fun b => block caps b d) bs) /\
  (forall d, 1 <= d <= D -> nth (d - 1) (gen_types g') [] =
     nth (d - 1) (gen_types g) [] ++ flat_map (fun b => repeat (t_type b) (length (block caps b d))) bs) /\
  (exists r, gen_reward g' = gen_reward g ++ r /\ length r = list_sum (map (count_fn caps) bs)).
Lemma rows_trans g1 g2 g3 a b : rows g1 g2 a -> rows g2 g3 b -> rows g1 g3 (a ++ b).
Proof.
  intros (_ & _ & W1 & T1 & (r1 & R1 & L1)) (A & B & W2 & T2 & (r2 & R2 & L2)).
  split; auto. split; auto. split; [|split].
  - intros d Hd. rewrite W2, W1, flat_map_app, app_assoc; auto.
  - intros d Hd. rewrite T2, T1, flat_map_app, app_assoc; auto.
  - exists (r1 ++ r2). rewrite R2, R1, app_assoc. split; auto.
    rewrite app_length, map_app, list_sum_app. lia.
Qed.
Lemma rows_refl g : length (gen_weights g) = D -> length (gen_types g) = D -> rows g g [].
Proof.
  intros A B. split; auto. split; auto. cbn. split; [|split]; try (intros; rewrite app_nil_r; auto).
  exists []. rewrite app_nil_r. auto.
Qed.

(** the entries of a block: those placed and, if there are teams, those of the other departments *)
Lemma placed_block u v ty : in_range caps (u, v, ty) ->
  exists placed, team_case caps u v ty = Some (count_fn caps (u, v, ty), placed) /\ NoDup (map fst placed) /\
    (forall d, In d (map fst placed) -> 1 <= d <= D) /\
    (forall d, 1 <= d <= D ->
       extra (assoc d placed) (count_fn caps (u, v, ty)) ++
         (if count_fn caps (u, v, ty) =? 0 then [] else extra (assoc d (others_of u v)) (count_fn caps (u, v, ty)))
       = block caps (u, v, ty) d).
Proof.
  clear HD. intros Hr. set (t := (u, v, ty)) in *.
  destruct (team_case_ok t Hr) as (placed & E & ND & Hp & Ha & Hz).
  cbn [t_u t_v t_type t fst snd] in E. exists placed. split; [exact E|]. split; [exact ND|]. split.
  { intros d Hd. apply Hp in Hd. destruct Hr as (H1 & H2 & _). cbn in *. destruct Hd as [_ [-> | ->]]; lia. }
  intros d Hd. rewrite assoc_others by auto. unfold block. cbn [t_u t_v t_type t fst snd] in *.
    set (s := (u =? v) || negb (snd (members ty) =? 0)).
    assert (Hs : s = true <-> u = v \/ snd (members ty) <> 0).
    { unfold s. rewrite orb_true_iff, negb_true_iff, Nat.eqb_eq, Nat.eqb_neq. tauto. }
    set (b := (d =? u) || (d =? v)).
    assert (Hb : b = true <-> d = u \/ d = v).
    { unfold b. rewrite orb_true_iff, !Nat.eqb_eq. tauto. }
    destruct (assoc d placed) as [w|] eqn:As.
    - assert (Hin : In d (map fst placed)).
      { destruct (in_dec Nat.eq_dec d (map fst placed)) as [|Hn]; auto. apply assoc_none in Hn. congruence. }
      apply Hp in Hin. rewrite <- Hs, <- Hb in Hin. destruct Hin as [-> ->].
      rewrite (Ha _ _ As). cbn [extra andb]. destruct (Nat.eqb_spec (count_fn caps t) 0) as [-> |Hc].
      + reflexivity.
      + rewrite app_nil_r. apply copies_repeat; auto.
    - apply assoc_none in As. rewrite Hp, <- Hs, <- Hb in As. cbn [extra app].
      destruct (Nat.eqb_spec (count_fn caps t) 0) as [Hc|Hc].
      + destruct s, b; cbn; auto. exfalso. auto.
      + assert (Ht : s = true) by (destruct s; auto; exfalso; apply Hc, Hz; rewrite <- Hs; discriminate).
        rewrite Ht in As. destruct b; [tauto|]. cbn [extra]. rewrite copies_repeat by auto. f_equal.
        assert (Hd1 : d <> u) by (intro; assert (false = true) by (apply Hb; auto); discriminate).
        assert (Hd2 : d <> v) by (intro; assert (false = true) by (apply Hb; auto); discriminate).
        unfold need. cbn [t_u t_v t fst snd].
        rewrite (proj2 (Nat.eqb_neq d u)), (proj2 (Nat.eqb_neq d v)) by auto. reflexivity.
Qed.

Lemma gen_type_ok g sizes u v ty : length (gen_weights g) = D -> length (gen_types g) = D ->
  in_range caps (u, v, ty) ->
  exists g', gen_type caps u v (g, sizes) ty = Some (g', sizes ++ [count_fn caps (u, v, ty)]) /\ rows g g' [(u, v, ty)].
Proof.
  intros L1 L2 Hr. set (t := (u, v, ty)) in *. unfold gen_type.
  destruct (placed_block u v ty Hr) as (placed & E & ND & Hp & X). fold t in E, X. rewrite E. cbn [bind].
  destruct (place_all D (count_fn caps t) ty placed g) as (g1 & E1 & R1 & A1 & B1 & C1 & D1); auto.
  rewrite E1. cbn [bind].
  cbn [t_type t snd] in X.
  destruct (Nat.eqb_spec (count_fn caps t) 0) as [Hc|Hc].
  - exists g1. split; [rewrite Hc; reflexivity|]. split; auto. split; auto. split; [|split].
    + intros d Hd. rewrite C1 by auto. cbn [flat_map]. rewrite <- X, !app_nil_r by auto. reflexivity.
    + intros d Hd. rewrite D1 by auto. cbn [flat_map t_type t snd]. rewrite <- X, !app_nil_r by auto. reflexivity.
    + exists []. rewrite app_nil_r. split; auto. cbn. lia.
  - destruct (reward_ok t Hr) as (r & Er). cbn [t_u t_v t_type t fst snd] in Er. rewrite Er. cbn [bind].
    fold (others_of u v).
    set (g2 := {| gen_reward := gen_reward g1 ++ copies r (count_fn caps t); gen_weights := gen_weights g1; gen_types := gen_types g1 |}).
    destruct (place_all D (count_fn caps t) ty (others_of u v) g2) as (g3 & E3 & R3 & A3 & B3 & C3 & D3); auto.
    { rewrite others_fst. apply NoDup_filter. apply seq_NoDup. }
    { intros d. rewrite others_fst, filter_In. unfold units. rewrite in_seq. lia. }
    rewrite E3. cbn [bind]. exists g3. split; [reflexivity|]. split; auto. split; auto. split; [|split].
    + intros d Hd. rewrite C3 by auto. cbn [gen_weights g2 flat_map]. rewrite C1 by auto.
      rewrite <- X, app_nil_r, app_assoc by auto. reflexivity.
    + intros d Hd. rewrite D3 by auto. cbn [gen_types g2 flat_map t_type t snd]. rewrite D1 by auto.
      rewrite <- X, app_nil_r, app_length, repeat_app, app_assoc by auto. reflexivity.
    + exists (copies r (count_fn caps t)). rewrite R3. cbn [gen_reward g2]. rewrite R1. split; auto.
      rewrite copies_repeat by auto. rewrite repeat_length. cbn. lia.
Qed.

Lemma gen_types_ok u v types : Forall (fun ty => in_range caps (u, v, ty)) types -> forall g sizes,
  length (gen_weights g) = D -> length (gen_types g) = D ->
  exists g', foldM (gen_type caps u v) types (g, sizes) =
     Some (g', sizes ++ map (fun ty => count_fn caps (u, v, ty)) types) /\
     rows g g' (map (fun ty => (u, v, ty)) types).
Proof.
  induction types as [|ty types IH]; intros F g sizes L1 L2.
  - exists g. cbn. rewrite app_nil_r. split; auto. apply rows_refl; auto.
  - inversion F; subst. destruct (gen_type_ok g sizes u v ty) as (g1 & E1 & R1); auto.
    cbn [foldM]. rewrite E1. cbn [bind].
    destruct (IH H2 g1 (sizes ++ [count_fn caps (u, v, ty)])) as (g2 & E2 & R2); try apply R1.
    exists g2. rewrite E2. cbn [map]. rewrite <- app_assoc. split; auto.
    apply (rows_trans g g1 g2 [_] _ R1 R2).
Qed.
Lemma gen_combos_ok types combos : Forall (fun c => Forall (fun ty => in_range caps (c, ty)) types) combos ->
  forall g sums, length (gen_weights g) = D -> length (gen_types g) = D ->
  exists g', foldM (gen_combination caps types) combos (g, sums) =
     Some (g', sums ++ map (fun c => list_sum (map (fun ty => count_fn caps (c, ty)) types)) combos) /\
     rows g g' (blocks types combos).
Proof.
  induction combos as [|[u v] combos IH]; intros F g sums L1 L2.
  - exists g. cbn. rewrite app_nil_r. split; auto. apply rows_refl; auto.
  - inversion F; subst. destruct (gen_types_ok u v types H1 g []) as (g1 & E1 & R1); auto.
    cbn [foldM]. unfold gen_combination at 1. cbn [fst snd]. rewrite E1. cbn [bind app].
    destruct (IH H2 g1 (sums ++ [list_sum (map (fun ty => count_fn caps (u, v, ty)) types)])) as (g2 & E2 & R2); try apply R1.
    exists g2. rewrite E2. cbn [map]. rewrite <- app_assoc. split; auto.
    apply (rows_trans g g1 g2 _ _ R1 R2).
Qed.
Lemma nth_repeat_nil {A} k n : nth k (repeat (@nil A) n) [] = [].
Proof. revert k. induction n; intros [|k]; cbn; auto. Qed.
Lemma generate_ok types combos : Forall (fun c => Forall (fun ty => in_range caps (c, ty)) types) combos ->
  exists g, generate caps types combos =
     Some (g, map (fun c => list_sum (map (fun ty => count_fn caps (c, ty)) types)) combos) /\
     length (gen_weights g) = D /\ length (gen_types g) = D /\
     length (gen_reward g) = list_sum (map (count_fn caps) (blocks types combos)) /\
     (forall d, 1 <= d <= D -> nth (d - 1) (gen_weights g) [] = flat_map (fun b => block caps b d) (blocks types combos)) /\
     (forall d, 1 <= d <= D -> nth (d - 1) (gen_types g) [] =
        flat_map (fun b => repeat (t_type b) (length (block caps b d))) (blocks types combos)).
Proof.
  intro F. unfold generate.
  destruct (gen_combos_ok types combos F {| gen_reward := []; gen_weights := repeat [] D; gen_types := repeat [] D |} [])
    as (g & E & (A & B & W & T & (r & R & L))); try apply repeat_length.
  exists g. rewrite E. split; auto. split; auto. split; auto. split; [cbn in R; rewrite R; auto|].
  split; intros d Hd; [rewrite W by auto|rewrite T by auto]; cbn [gen_weights gen_types];
    rewrite nth_repeat_nil; reflexivity.
Qed.

End Gen.

(** ** Aligned data *)
Section Aligned.
Variable caps : list nat.
Definition teams_of (bs : list team) : list team := flat_map (fun b => repeat b (count_fn caps b)) bs.
Lemma teams_length bs : length (teams_of bs) = list_sum (map (count_fn caps) bs).
Proof.
  induction bs as [|b bs IH]; auto. cbn [teams_of flat_map]. fold (teams_of bs). rewrite app_length, repeat_length, IH.
  reflexivity.
Qed.
Lemma sensible_dec t : {sensible t} + {~ sensible t}.
Proof.
  unfold sensible. destruct (Nat.eq_dec (t_u t) (t_v t)); [left; auto|].
  destruct (Nat.eq_dec (snd (members (t_type t))) 0); [right; tauto|left; auto].
Defined.
Lemma sensible_b t : ((t_u t =? t_v t) || negb (snd (members (t_type t)) =? 0)) = true <-> sensible t.
Proof. unfold sensible. rewrite orb_true_iff, negb_true_iff, Nat.eqb_eq, Nat.eqb_neq. tauto. Qed.
Lemma fits0 t : fits caps 0 t.
Proof. intros d _. lia. Qed.
Lemma fits_le j k t : j <= k -> fits caps k t -> fits caps j t.
Proof. intros H F d Hd. specialize (F d Hd). nia. Qed.
Lemma team_count_pos t k : team_count caps t k -> sensible t -> fits caps 1 t -> k <> 0.
Proof. intros [(_ & _ & N)|[N _]] S F; [|tauto]. intros ->. apply N. exact F. Qed.
Lemma team_count_fits t k : team_count caps t k -> k <> 0 -> fits caps 1 t.
Proof. intros [(_ & F & _)|[_ ->]] Hk; [|congruence]. apply (fits_le 1 k); auto. lia. Qed.
Lemma block_length t d : in_range caps t ->
  length (block caps t d) = count_fn caps t +
    (if (count_fn caps t =? 0) && ((t_u t =? t_v t) || negb (snd (members (t_type t)) =? 0)) && ((d =? t_u t) || (d =? t_v t))
     then 1 else 0).
Proof.
  intro Hr. unfold block. destruct (Nat.eqb_spec (count_fn caps t) 0) as [E|E].
  - rewrite E. cbn [andb]. destruct (_ && _); reflexivity.
  - cbn [andb]. rewrite repeat_length. lia.
Qed.
Lemma block_aligned t d : in_range caps t -> (sensible t -> fits caps 1 t) ->
  block caps t d = repeat (need d t) (count_fn caps t).
Proof.
  intros Hr Hf. pose proof (count_ok caps t Hr) as C. unfold block.
  destruct (Nat.eqb_spec (count_fn caps t) 0) as [E|E]; auto. rewrite E.
  destruct (_ || negb _) eqn:Es; cbn [andb]; auto.
  apply sensible_b in Es. exfalso. eapply team_count_pos; eauto.
Qed.
Lemma map_teams {B} (f : team -> B) bs : map f (teams_of bs) = flat_map (fun b => repeat (f b) (count_fn caps b)) bs.
Proof.
  induction bs as [|b bs IH]; auto. cbn [teams_of flat_map]. fold (teams_of bs). rewrite map_app, IH. f_equal.
  induction (count_fn caps b); cbn; congruence.
Qed.
Lemma flat_map_ext_in {A B} (f g : A -> list B) l : (forall a, In a l -> f a = g a) -> flat_map f l = flat_map g l.
Proof. induction l; cbn; auto. intro H. rewrite H, IHl; auto. Qed.

(** ** Locations *)
Fixpoint last_from (off : nat) (sums : list nat) : list Z :=
  match sums with [] => [] | s :: r => (Z.of_nat (off + s)%nat - 1)%Z :: last_from (off + s) r end.
Lemma last_from_eq sums : forall off, last_from off sums =
  map (fun i => (Z.of_nat (off + (list_sum (firstn i sums) + nth i sums 0))%nat - 1)%Z) (seq 0 (length sums)).
Proof.
  induction sums as [|s r IH]; intro off; auto. cbn [last_from length seq map]. f_equal.
  rewrite IH, <- seq_shift, map_map. apply map_ext. intro i. cbn [firstn nth].
  change (list_sum (s :: firstn i r)) with (s + list_sum (firstn i r)). do 2 f_equal. lia.
Qed.
Lemma last_index_eq sums : last_index sums = last_from 0 sums.
Proof. rewrite last_from_eq. reflexivity. Qed.
Lemma location_ok {A} (dflt : A) segs : forall off t, off <= t < off + length (concat segs) ->
  exists loc seg, location (last_from off (map (@length A) segs)) t = Some loc /\
    nth_error segs loc = Some seg /\ In (nth (t - off) (concat segs) dflt) seg.
Proof.
  induction segs as [|s segs IH]; intros off t H; cbn [concat length] in H; [lia|].
  rewrite app_length in H. cbn [map last_from location concat].
  destruct (Z.leb_spec (Z.of_nat t) (Z.of_nat (off + length s) - 1)).
  - exists 0, s. split; auto. split; auto. rewrite app_nth1 by lia. apply nth_In. lia.
  - destruct (IH (off + length s) t) as (loc & seg & E & G & Hin); [lia|].
    rewrite E. cbn [bind]. exists (S loc), seg. split; auto. split; auto.
    rewrite app_nth2 by lia. replace (t - off - length s) with (t - (off + length s)) by lia. auto.
Qed.
Lemma location_mono last : forall t t' i j, t <= t' -> location last t = Some i -> location last t' = Some j -> i <= j.
Proof.
  induction last as [|z last IH]; intros t t' i j H; cbn [location]; [discriminate|].
  destruct (Z.leb_spec (Z.of_nat t) z); [intro E; injection E as <-; lia|].
  destruct (Z.leb_spec (Z.of_nat t') z); [lia|].
  destruct (location last t) as [a|] eqn:Ea; [|discriminate].
  destruct (location last t') as [b|] eqn:Eb; [|discriminate].
  cbn [bind]. intros E1 E2. injection E1 as <-. injection E2 as <-. specialize (IH _ _ _ _ H Ea Eb). lia.
Qed.
Lemma concat_teams types combos :
  teams_of (blocks types combos) = concat (map (fun c => teams_of (map (fun ty => (c, ty)) types)) combos).
Proof.
  induction combos as [|c combos IH]; auto. change (blocks types (c :: combos)) with (map (fun ty => (c, ty)) types ++ blocks types combos).
  cbn [map concat]. rewrite <- IH. apply flat_map_app.
Qed.
Lemma team_location types combos t : t < length (teams_of (blocks types combos)) ->
  exists loc, location (last_index (map (fun c => list_sum (map (fun ty => count_fn caps (c, ty)) types)) combos)) t = Some loc /\
    nth_error combos loc = Some (t_u (nth t (teams_of (blocks types combos)) (0, 0, 0)),
                                 t_v (nth t (teams_of (blocks types combos)) (0, 0, 0))).
Proof.
  rewrite concat_teams. intro H. rewrite last_index_eq.
  destruct (location_ok (0, 0, 0) (map (fun c => teams_of (map (fun ty => (c, ty)) types)) combos) 0 t) as (loc & seg & E & G & Hin);
    [rewrite Nat.add_0_l; split; [apply Nat.le_0_l|exact H]|].
  exists loc. split.
  - rewrite map_map in E. erewrite map_ext; [exact E|]. intro c. cbn beta. rewrite teams_length, map_map. reflexivity.
  - rewrite nth_error_map in G. destruct (nth_error combos loc) as [c|]; [|discriminate]. injection G as <-.
    rewrite Nat.sub_0_r in Hin. set (x := nth t _ _) in *. clearbody x.
    unfold teams_of in Hin. apply in_flat_map in Hin as (b & Hb & Hx). apply repeat_spec in Hx. subst b.
    apply in_map_iff in Hb as (ty & <- & _). destruct c; reflexivity.
Qed.
End Aligned.

(** ** What the object knows about its teams *)
Definition wf_obj (o : kc_obj) (teams : list team) : Prop :=
  o_teams o = length teams /\ o_types o = map t_type teams /\
  length (o_weights o) = length (o_caps o) /\
  (forall d, 1 <= d <= length (o_caps o) -> nth_error (o_weights o) (d - 1) = Some (map (need d) teams)) /\
  (forall t x, nth_error teams t = Some x ->
     in_range (o_caps o) x /\ sensible x /\ fits (o_caps o) 1 x /\
     exists loc, location (o_last o) t = Some loc /\ nth_error (o_combos o) loc = Some (t_u x, t_v x)).

Lemma in_blocks types combos b : In b (blocks types combos) <-> In (t_u b, t_v b) combos /\ In (t_type b) types.
Proof.
  unfold blocks. rewrite in_flat_map. destruct b as [[u v] ty]. cbn [t_u t_v t_type fst snd]. split.
  - intros (c & Hc & Hin). apply in_map_iff in Hin as (y & E & Hy). injection E as -> ->. auto.
  - intros [Hc Ht]. exists (u, v). split; auto. apply in_map_iff. eauto.
Qed.
Lemma initialize_ok caps types : 1 <= length caps <= 11 -> Forall (fun ty => 1 <= ty <= 5) types ->
  exists combos, prune_teams (length caps) = Some combos /\
  (forall b, In b (blocks types combos) -> in_range caps b) /\
  ((forall b, In b (blocks types combos) -> sensible b -> fits caps 1 b) ->
   exists o, kc_initialize caps types = Some o /\ o_caps o = caps /\ o_combos o = combos /\
     wf_obj o (teams_of caps (blocks types combos))).
Proof.
  intros HD Ht. destruct (prune_ok (length caps)) as (combos & Ep & Pd & Pp & Pr); [lia|].
  exists combos. split; auto.
  assert (R : forall b, In b (blocks types combos) -> in_range caps b).
  { intros b Hb. apply in_blocks in Hb as [Hc Hty]. apply Pr in Hc. rewrite Forall_forall in Ht. split; [|split]; [lia|lia|auto]. }
  split; auto. intro Hfit.
  destruct (generate_ok caps (proj2 HD) types combos) as (g & Eg & L1 & L2 & Lr & Gw & Gt).
  { apply Forall_forall. intros c Hc. apply Forall_forall. intros ty Hty. apply R. apply in_blocks.
    destruct c; auto. }
  unfold kc_initialize. rewrite Ep. cbn [bind]. rewrite Eg. cbn [bind].
  unfold get. rewrite (nth_error_nth' (gen_types g) []) by lia. cbn [bind].
  eexists. split; [reflexivity|]. cbn [o_caps o_combos]. split; auto. split; auto.
  unfold wf_obj. cbn [o_caps o_combos o_weights o_types o_last o_teams].
  assert (AL : forall b d, In b (blocks types combos) -> block caps b d = repeat (need d b) (count_fn caps b)).
  { intros b d Hb. apply block_aligned; auto. }
  split; [rewrite teams_length; auto|]. split; [|split; [auto|split]].
  - rewrite map_teams. change 0 with (1 - 1) at 1. rewrite (Gt 1) by lia. apply flat_map_ext_in. intros b Hb. rewrite AL, repeat_length; auto.
  - intros d Hd. rewrite (nth_error_nth' (gen_weights g) []) by lia. rewrite Gw by auto. f_equal.
    rewrite map_teams. apply flat_map_ext_in. auto.
  - intros t x Hx. pose proof (nth_error_In _ _ Hx) as Hin. unfold teams_of in Hin.
    apply in_flat_map in Hin as (b & Hb & Hr). apply repeat_spec in Hr as Eb; subst b.
    assert (Hc : count_fn caps x <> 0) by (intro E; rewrite E in Hr; destruct Hr).
    pose proof (count_ok caps x (R x Hb)) as Ck.
    assert (Sx : sensible x) by (destruct Ck as [[S _]|[_ E]]; [auto|congruence]).
    split; [auto|]. split; auto. split; [eapply team_count_fits; eauto|].
    destruct (team_location caps types combos t) as (loc & El & Ec).
    { apply nth_error_Some. congruence. }
    rewrite (nth_error_nth _ _ _ Hx) in Ec. eauto.
Qed.

Lemma team_count_unique caps b k k' : team_count caps b k -> team_count caps b k' -> k = k'.
Proof.
  intros [(S & F & N)|[S ->]] [(S' & F' & N')|[S' ->]]; try tauto.
  destruct (Nat.lt_trichotomy k k') as [H|[H|H]]; auto; exfalso.
  - apply N. apply (fits_le caps (k + 1) k'); auto. lia.
  - apply N'. apply (fits_le caps (k' + 1) k); auto. lia.
Qed.
Lemma generated_unique caps types combos teams : (forall b, In b (blocks types combos) -> in_range caps b) ->
  generated caps types combos teams -> teams = teams_of caps (blocks types combos).
Proof.
  intros Hr (count & Hc & ->). unfold teams_of. revert Hr Hc. generalize (blocks types combos) as bs.
  induction bs as [|b bs IH]; intros Hr Hc; auto. cbn [flat_map].
  rewrite (team_count_unique caps b (count b) (count_fn caps b)); [|apply Hc; cbn; auto|apply count_ok, Hr; cbn; auto].
  f_equal. apply IH; intros; [apply Hr|apply Hc]; cbn; auto.
Qed.
