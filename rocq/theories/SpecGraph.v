(** * Graph vocabulary for the TSP statements: paths, cycles, tours, cuts.  Nothing here refers to
    the model of the code. *)
From Coq Require Import List Arith Lia Permutation.
Import ListNotations.

(** [u] and [v] are neighbours in the list [l], in that order *)
Definition consecutive (l : list nat) (u v : nat) : Prop := exists a b, l = a ++ u :: v :: b.
(** every step of [l] is an edge *)
Definition path_in (E : list (nat * nat)) (l : list nat) : Prop :=
  forall u v, consecutive l u v -> In (u, v) E.
(** [l] lists the nodes of a simple directed cycle of [E], without repeating the first node *)
Definition cycle (E : list (nat * nat)) (l : list nat) : Prop :=
  NoDup l /\ exists x l', l = x :: l' /\ path_in E (l ++ [x]).
(** the same cyclic sequence, started elsewhere *)
Definition rotation (l l' : list nat) : Prop := exists a b, l = a ++ b /\ l' = b ++ a.
(** [l] is a Hamiltonian cycle of [E] on the nodes [0 .. n-1] *)
Definition hamiltonian (n : nat) (E : list (nat * nat)) (l : list nat) : Prop :=
  cycle E l /\ Permutation l (seq 0 n).
(** no edge from a node to itself *)
Definition loopless (E : list (nat * nat)) : Prop := forall u, ~ In (u, u) E.

(** ** Facts *)

Lemma path_in_cons : forall E x y l,
  path_in E (x :: y :: l) <-> In (x, y) E /\ path_in E (y :: l).
Proof.
  intros E x y l; split.
  - intros H; split.
    + apply H; exists [], l; reflexivity.
    + intros u v (a & b & Eq); apply H; exists (x :: a), b; cbn; now rewrite Eq.
  - intros (H1 & H2) u v ([|z a] & b & Eq); cbn in Eq.
    + injection Eq as -> -> ->; exact H1.
    + injection Eq as _ Eq; apply H2; exists a, b; exact Eq.
Qed.
Lemma path_in_one : forall E x, path_in E [x].
Proof. intros E x u v ([|z [|w a]] & b & Eq); discriminate. Qed.
Lemma path_in_nil : forall E, path_in E [].
Proof. intros E u v ([|z a] & b & Eq); discriminate. Qed.
Lemma path_in_app : forall E x b a,
  path_in E (a ++ x :: b) <-> path_in E (a ++ [x]) /\ path_in E (x :: b).
Proof.
  intros E x b a; revert x b; induction a as [|z a IH]; intros x b; cbn.
  - split; [intros H; split; [apply path_in_one|exact H] | tauto].
  - destruct a as [|w a]; cbn in *.
    + rewrite !path_in_cons. split; [intros (A & B); repeat split; auto using path_in_one|tauto].
    + rewrite !path_in_cons, IH. tauto.
Qed.
Lemma path_in_prefix : forall E a b, path_in E (a ++ b) -> path_in E a.
Proof.
  intros E a b H u v (p & q & Eq); apply H; exists p, (q ++ b); rewrite Eq, <- app_assoc; reflexivity.
Qed.
Lemma path_in_suffix : forall E a b, path_in E (a ++ b) -> path_in E b.
Proof.
  intros E a b H u v (p & q & Eq); apply H; exists (a ++ p), q; rewrite Eq, <- app_assoc; reflexivity.
Qed.
Lemma path_in_incl : forall E E' l, incl E E' -> path_in E l -> path_in E' l.
Proof. intros E E' l I H u v C; apply I, H, C. Qed.

Lemma rotation_refl : forall l, rotation l l.
Proof. intros l; exists [], l; now rewrite app_nil_r. Qed.
Lemma rotation_sym : forall l l', rotation l l' -> rotation l' l.
Proof. intros l l' (a & b & -> & ->); exists b, a; auto. Qed.
Lemma app_split : forall (a b c d : list nat), a ++ b = c ++ d ->
  (exists x, c = a ++ x /\ b = x ++ d) \/ (exists x, a = c ++ x /\ d = x ++ b).
Proof.
  induction a as [|z a IH]; intros b c d H; cbn in *.
  - left; exists c; auto.
  - destruct c as [|w c]; cbn in *.
    + right; exists (z :: a); auto.
    + injection H as -> H; destruct (IH _ _ _ H) as [(x & -> & ->)|(x & -> & ->)];
        [left|right]; exists x; auto.
Qed.
Lemma rotation_trans : forall a b c, rotation a b -> rotation b c -> rotation a c.
Proof.
  intros a b c (x & y & -> & ->) (z & w & E & ->).
  destruct (app_split _ _ _ _ E) as [(t & -> & ->)|(t & -> & ->)].
  - exists t, (w ++ y); rewrite !app_assoc; auto.
  - exists (x ++ z), t. rewrite !app_assoc; auto.
Qed.
Lemma rotation_perm : forall a b, rotation a b -> Permutation a b.
Proof. intros a b (x & y & -> & ->); apply Permutation_app_comm. Qed.
Lemma rotation_nodup : forall a b, rotation a b -> NoDup a -> NoDup b.
Proof. intros a b R; apply Permutation_NoDup, rotation_perm, R. Qed.
Lemma rotation_cycle : forall E a b, rotation a b -> cycle E a -> cycle E b.
Proof.
  intros E a b R (N & x & l & Eq & P). pose proof (rotation_nodup _ _ R N) as N'.
  destruct R as (p & q & -> & ->).
  split; [exact N'|].
  destruct q as [|y q]; cbn [app] in *.
  { rewrite app_nil_r in *. exists x, l; subst; auto. }
  destruct p as [|z p]; cbn [app] in *.
  { rewrite app_nil_r in *. exists x, l; subst; auto. }
  injection Eq as -> <-.
  exists y, (q ++ x :: p); split; [reflexivity|].
  rewrite <- app_assoc in P; cbn [app] in P.
  change (x :: p ++ y :: q ++ [x]) with ((x :: p) ++ y :: (q ++ [x])) in P.
  apply path_in_app in P as (P1 & P2).
  assert (H : path_in E ((y :: q) ++ x :: (p ++ [y])))
    by (apply path_in_app; split; [exact P2|exact P1]).
  cbn in H |- *; rewrite <- app_assoc; exact H.
Qed.
Lemma cycle_nonempty : forall E l, cycle E l -> l <> [].
Proof. intros E l (_ & x & l' & -> & _); discriminate. Qed.
Lemma cycle_path : forall E l, cycle E l -> path_in E l.
Proof. intros E l (_ & x & l' & -> & P); exact (path_in_prefix _ _ _ P). Qed.

(** ** Cuts *)

(** edge number [i] goes from a node of [l] to a node outside [l] *)
Definition leaves (E : list (nat * nat)) (l : list nat) (i : nat) : Prop :=
  exists u v, nth_error E i = Some (u, v) /\ In u l /\ ~ In v l.
(** every edge between two different nodes below [n], each listed once, and no others *)
Definition complete (n : nat) (E : list (nat * nat)) : Prop :=
  NoDup E /\ forall u v, In (u, v) E <-> u < n /\ v < n /\ u <> v.

Lemma complete_loopless : forall n E, complete n E -> loopless E.
Proof. intros n E (_ & H) u I; apply H in I; tauto. Qed.

(** A path that starts inside [S] and meets a node outside has a step from inside to outside. *)
Lemma path_crosses : forall (S : nat -> Prop), (forall x, {S x} + {~ S x}) ->
  forall l x y, S x -> In y l -> ~ S y -> exists u v, consecutive (x :: l) u v /\ S u /\ ~ S v.
Proof.
  intros S D; induction l as [|z l IH]; intros x y Hx Hy Ny; [destruct Hy|].
  destruct (D z) as [Hz|Nz].
  - destruct Hy as [->|Hy]; [contradiction|].
    destruct (IH z y Hz Hy Ny) as (u & v & (a & b & Eq) & Su & Nv).
    exists u, v; split; [exists (x :: a), b; cbn; now rewrite Eq|auto].
  - exists x, z; split; [exists [], l; reflexivity|auto].
Qed.
(** Every cycle with nodes inside and outside [S] has an edge from inside to outside. *)
Lemma cycle_crosses : forall E c (S : nat -> Prop), (forall x, {S x} + {~ S x}) -> cycle E c ->
  (exists x, In x c /\ S x) -> (exists y, In y c /\ ~ S y) ->
  exists x c', c = x :: c' /\ exists u v, consecutive (c ++ [x]) u v /\ S u /\ ~ S v.
Proof.
  intros E c S D (N & x & c' & -> & P) (s & Is & Ss) (y & Iy & Ny).
  exists x, c'; split; [reflexivity|].
  destruct (D x) as [Sx|Nx].
  - destruct Iy as [->|Iy]; [contradiction|].
    destruct (path_crosses S D (c' ++ [x]) x y Sx) as (u & v & C & Su & Nv); auto.
    { apply in_or_app; now left. }
    exists u, v; auto.
  - destruct Is as [->|Is]; [contradiction|].
    apply in_split in Is as (a & b & ->).
    destruct (path_crosses S D (b ++ [x]) s x Ss) as (u & v & (p & q & Eq) & Su & Nv); auto.
    { apply in_or_app; right; now left. }
    exists u, v; split; [|auto].
    exists (x :: a ++ p), q. cbn. rewrite <- !app_assoc. cbn. now rewrite <- Eq.
Qed.

(** ** Steps of a walk *)
Fixpoint steps (l : list nat) : list (nat * nat) :=
  match l with
  | x :: ((y :: _) as t) => (x, y) :: steps t
  | _ => []
  end.
Lemma in_steps : forall l u v, In (u, v) (steps l) <-> consecutive l u v.
Proof.
  induction l as [|x l IH]; intros u v.
  - cbn; split; [tauto|]. intros ([|z a] & b & Q); discriminate.
  - destruct l as [|y l].
    + cbn; split; [tauto|]. intros ([|z [|w a]] & b & Q); discriminate.
    + change (steps (x :: y :: l)) with ((x, y) :: steps (y :: l)). cbn [In]. rewrite IH. split.
      * intros [Q|(a & b & Q)]; [injection Q as -> ->; exists [], l; reflexivity|].
        exists (x :: a), b; cbn; now rewrite Q.
      * intros ([|z a] & b & Q); cbn in Q.
        -- left. injection Q as -> -> _. reflexivity.
        -- right. injection Q as _ Q. exists a, b; exact Q.
Qed.
Lemma steps_sources : forall t x, map fst (steps (t ++ [x])) = t.
Proof.
  induction t as [|a t IH]; intros x; [reflexivity|].
  destruct t as [|b t]; [reflexivity|].
  change (steps ((a :: b :: t) ++ [x])) with ((a, b) :: steps ((b :: t) ++ [x])).
  cbn [map fst]. now rewrite IH.
Qed.
Lemma steps_nodup : forall t x, NoDup t -> NoDup (steps (t ++ [x])).
Proof. intros t x H; apply (NoDup_map_inv fst). now rewrite steps_sources. Qed.
Lemma path_steps : forall E l, path_in E l <-> incl (steps l) E.
Proof.
  intros E l; split.
  - intros H (u & v) I; apply H, in_steps, I.
  - intros H u v C; apply H, in_steps, C.
Qed.
(** a list without duplicates contained in another one can be taken out of it *)
Lemma take_out : forall {A} (l l' : list A), NoDup l -> incl l l' -> exists r, Permutation l' (l ++ r).
Proof.
  intros A l; induction l as [|x l IH]; intros l' N I; [exists l'; apply Permutation_refl|].
  inversion N as [|y t Nx Nl]; subst.
  destruct (in_split x l') as (a & b & ->); [apply I; now left|].
  destruct (IH (a ++ b)) as (r & P); [exact Nl| |].
  - intros y Hy. assert (J : In y (a ++ x :: b)) by (apply I; now right).
    apply in_app_iff in J as [J|[->|J]]; [apply in_or_app; now left|contradiction|apply in_or_app; now right].
  - exists r. cbn. eapply Permutation_trans; [apply Permutation_sym, Permutation_middle|]. now constructor.
Qed.
