(** * Relational reading of the solvers: two runs on related numbers.

    [R] relates numbers of two runs and is preserved by the operations the solvers use on numbers;
    then the runs take the same branches and their results are related. *)
From Coq Require Import Permutation.
From Verif Require Import Num NumFacts Arr ArrFacts M_Tsp_Constraints M_Equality M_Filter M_InOut M_Ksat M_Kc_Trellis M_Knapsack.
From Verif Require Import M_Runs M_Tsp_Loops M_Tsp_Run M_Tsp_Py M_Tsp_Post M_Ksat_Py M_Kc_Py.
Local Open Scope nat_scope.

(** ** Failure, pairs, lists *)

Definition orel {A B} (R : A -> B -> Prop) (x : option A) (y : option B) : Prop :=
  match x, y with Some a, Some b => R a b | None, None => True | _, _ => False end.
Definition prel {A A' B B'} (R : A -> A' -> Prop) (S : B -> B' -> Prop) (x : A * B) (y : A' * B') : Prop :=
  R (fst x) (fst y) /\ S (snd x) (snd y).
Notation lrel := Forall2.
Notation mrel R := (Forall2 (Forall2 R)).

Lemma orel_some {A B} (R : A -> B -> Prop) a b : R a b -> orel R (Some a) (Some b).
Proof. auto. Qed.
Lemma orel_bind {A A' B B'} (R : A -> A' -> Prop) (S : B -> B' -> Prop) x y f g :
  orel R x y -> (forall a b, R a b -> orel S (f a) (g b)) -> orel S (bind x f) (bind y g).
Proof. destruct x, y; cbn; auto; contradiction. Qed.
(** the same value on both sides *)
Lemma orel_bind_eq {A B B'} (S : B -> B' -> Prop) (x : option A) f g :
  (forall a, x = Some a -> orel S (f a) (g a)) -> orel S (bind x f) (bind x g).
Proof. destruct x; cbn; auto. Qed.
Lemma orel_impl {A B} (R S : A -> B -> Prop) x y : orel R x y -> (forall a b, R a b -> S a b) -> orel S x y.
Proof. destruct x, y; cbn; auto. Qed.
Lemma orel_eq {A} (x : option A) : orel eq x x.
Proof. destruct x; cbn; auto. Qed.
Lemma orel_eq_eq {A} (x y : option A) : orel eq x y -> x = y.
Proof. destruct x, y; cbn; congruence || contradiction. Qed.

Lemma lrel_len {A B} (R : A -> B -> Prop) l l' : lrel R l l' -> length l = length l'.
Proof. induction 1; cbn; auto. Qed.
Lemma lrel_get {A B} (R : A -> B -> Prop) l l' i : lrel R l l' -> orel R (get l i) (get l' i).
Proof. unfold get. intros F; revert i; induction F; intros [|i]; cbn; auto. Qed.
Lemma lrel_upd {A B} (R : A -> B -> Prop) l l' i v v' : lrel R l l' -> R v v' -> lrel R (upd l i v) (upd l' i v').
Proof. intros F V; revert i; induction F; intros [|i]; cbn; auto. Qed.
Lemma lrel_set {A B} (R : A -> B -> Prop) l l' i v v' : lrel R l l' -> R v v' -> orel (lrel R) (set l i v) (set l' i v').
Proof. intros F V. unfold set. rewrite <- (lrel_len R l l' F). destruct (i <? length l); cbn; auto using lrel_upd. Qed.
Lemma mrel_get2 {A B} (R : A -> B -> Prop) l l' i j : mrel R l l' -> orel R (get2 l i j) (get2 l' i j).
Proof. intros F. unfold get2. eapply orel_bind; [apply lrel_get; exact F|]. intros; apply lrel_get; auto. Qed.
Lemma mrel_set2 {A B} (R : A -> B -> Prop) l l' i j v v' : mrel R l l' -> R v v' -> orel (mrel R) (set2 l i j v) (set2 l' i j v').
Proof.
  intros F V. unfold set2. eapply orel_bind; [apply lrel_get; exact F|]. intros.
  eapply orel_bind; [apply lrel_set; eauto|]. intros. apply lrel_set; auto.
Qed.
Lemma orel_foldM {S S' A} (T : S -> S' -> Prop) (l : list A) f g s s' :
  (forall a s s', T s s' -> orel T (f s a) (g s' a)) -> T s s' -> orel T (foldM f l s) (foldM g l s').
Proof.
  intros H; revert s s'; induction l as [|a l IH]; intros s s' E; cbn [foldM]; [exact E|].
  eapply orel_bind; [apply H; exact E|]. intros; apply IH; auto.
Qed.
Lemma orel_foldM2 {S S' A A'} (T : S -> S' -> Prop) (Q : A -> A' -> Prop) l l' f g s s' :
  lrel Q l l' -> (forall a a' s s', Q a a' -> T s s' -> orel T (f s a) (g s' a')) -> T s s' -> orel T (foldM f l s) (foldM g l' s').
Proof.
  intros F H; revert s s'; induction F; intros s s' E; cbn [foldM]; [exact E|].
  eapply orel_bind; [apply H; eauto|]. intros; apply IHF; auto.
Qed.
Lemma orel_for_up {S S'} (T : S -> S' -> Prop) lo hi f g s s' :
  T s s' -> (forall i s s', T s s' -> orel T (f s i) (g s' i)) -> orel T (for_up lo hi s f) (for_up lo hi s' g).
Proof. intros; apply orel_foldM; auto. Qed.
Lemma orel_for_down {S S'} (T : S -> S' -> Prop) lo hi f g s s' :
  T s s' -> (forall i s s', T s s' -> orel T (f s i) (g s' i)) -> orel T (for_down lo hi s f) (for_down lo hi s' g).
Proof. intros; apply orel_foldM; auto. Qed.
Lemma orel_mapM {A A' B B'} (Q : A -> A' -> Prop) (R : B -> B' -> Prop) l l' f g : lrel Q l l' ->
  (forall a a', Q a a' -> orel R (f a) (g a')) -> orel (lrel R) (mapM f l) (mapM g l').
Proof.
  intros F H. induction F; cbn [mapM]; [constructor|]. eapply orel_bind; [apply H; eauto|]. intros.
  eapply orel_bind; [exact IHF|]. intros. apply orel_some. constructor; auto.
Qed.
Lemma lrel_refl {A} (R : A -> A -> Prop) l : (forall a, R a a) -> lrel R l l.
Proof. intros H; induction l; constructor; auto. Qed.
Lemma lrel_eq {A} (l : list A) : lrel eq l l.
Proof. apply lrel_refl; auto. Qed.
Lemma lrel_repeat {A B} (R : A -> B -> Prop) a b n : R a b -> lrel R (repeat a n) (repeat b n).
Proof. intros; induction n; constructor; auto. Qed.
Lemma lrel_app {A B} (R : A -> B -> Prop) a a' b b' : lrel R a a' -> lrel R b b' -> lrel R (a ++ b) (a' ++ b').
Proof. intros; apply Forall2_app; auto. Qed.
Lemma lrel_skipn {A B} (R : A -> B -> Prop) n l l' : lrel R l l' -> lrel R (skipn n l) (skipn n l').
Proof. intros F; revert n; induction F; intros [|n]; cbn; auto. Qed.
Lemma lrel_firstn {A B} (R : A -> B -> Prop) n l l' : lrel R l l' -> lrel R (firstn n l) (firstn n l').
Proof. intros F; revert n; induction F; intros [|n]; cbn; auto. Qed.
Lemma lrel_map {A A' B B'} (Q : A -> A' -> Prop) (R : B -> B' -> Prop) f g l l' : lrel Q l l' ->
  (forall a a', Q a a' -> R (f a) (g a')) -> lrel R (map f l) (map g l').
Proof. intros F H; induction F; cbn; constructor; auto. Qed.
Lemma lrel_concat {A B} (R : A -> B -> Prop) l l' : mrel R l l' -> lrel R (concat l) (concat l').
Proof. intros F; induction F; cbn; [constructor|apply lrel_app; auto]. Qed.
Lemma lrel_combine {A A' B B'} (Q : A -> A' -> Prop) (R : B -> B' -> Prop) l l' m m' : lrel Q l l' -> lrel R m m' ->
  lrel (prel Q R) (combine l m) (combine l' m').
Proof. intros F; revert m m'; induction F; intros m m' G; cbn; [constructor|]. destruct G; constructor; [split; auto|auto]. Qed.
Lemma lrel_zip {A A' B B' C C'} (Q : A -> A' -> Prop) (R : B -> B' -> Prop) (S : C -> C' -> Prop) f g l l' m m' :
  lrel Q l l' -> lrel R m m' -> (forall a a' b b', Q a a' -> R b b' -> S (f a b) (g a' b')) -> lrel S (zip_with f l m) (zip_with g l' m').
Proof.
  intros F G H. unfold zip_with. eapply lrel_map; [apply lrel_combine; eauto|]. intros [a b] [a' b'] (X & Y). apply H; auto.
Qed.
Lemma orel_transform2 {A A' B B' C C'} (Q : A -> A' -> Prop) (R : B -> B' -> Prop) (S : C -> C' -> Prop) f g l l' m m' o o' :
  lrel Q l l' -> lrel R m m' -> lrel S o o' -> (forall a a' b b', Q a a' -> R b b' -> S (f a b) (g a' b')) ->
  orel (lrel S) (transform2 f l m o) (transform2 g l' m' o').
Proof.
  intros F G O H. unfold transform2. rewrite <- (lrel_len _ _ _ F), <- (lrel_len _ _ _ G), <- (lrel_len _ _ _ O).
  destruct (_ && _); cbn; auto. apply lrel_app; [eapply lrel_zip; eauto|apply lrel_skipn; auto].
Qed.
Lemma orel_copy {A B} (R : A -> B -> Prop) a a' o o' : lrel R a a' -> lrel R o o' -> orel (lrel R) (copy_into a o) (copy_into a' o').
Proof.
  intros F O. unfold copy_into. rewrite <- (lrel_len _ _ _ F), <- (lrel_len _ _ _ O). destruct (_ <=? _); cbn; auto.
  apply lrel_app; auto using lrel_skipn.
Qed.
Lemma orel_slice {A B} (R : A -> B -> Prop) a a' lo hi : lrel R a a' -> orel (lrel R) (slice a lo hi) (slice a' lo hi).
Proof.
  intros F. unfold slice. rewrite <- (lrel_len _ _ _ F). destruct (_ && _); cbn; auto. apply lrel_firstn, lrel_skipn; auto.
Qed.
Lemma orel_rows {A B} (R : A -> B -> Prop) d d' n k b b' : R d d' -> lrel R b b' -> orel (mrel R) (read_rows d n k b) (read_rows d' n k b').
Proof.
  intros D F. unfold read_rows. eapply orel_mapM; [apply lrel_eq|]. intros i _ <-. eapply orel_bind; [apply orel_slice; exact F|].
  intros. apply orel_copy; auto using lrel_repeat.
Qed.
Lemma lrel_fold_left {A A' B B'} (Q : A -> A' -> Prop) (R : B -> B' -> Prop) f g l l' s s' : lrel Q l l' -> R s s' ->
  (forall a a' s s', Q a a' -> R s s' -> R (f s a) (g s' a')) -> R (fold_left f l s) (fold_left g l' s').
Proof. intros F S H; revert s s' S; induction F; intros; cbn; auto. Qed.
Lemma lrel_existsb {A B} (R : A -> B -> Prop) f g l l' : lrel R l l' -> (forall a b, R a b -> f a = g b) -> existsb f l = existsb g l'.
Proof. intros F H; induction F; cbn; auto. rewrite IHF, (H _ _ H0). reflexivity. Qed.
Lemma lrel_map_eq {A A' B} (Q : A -> A' -> Prop) (f : A -> B) g l l' : lrel Q l l' -> (forall a a', Q a a' -> f a = g a') -> map f l = map g l'.
Proof. intros F H; induction F; cbn; auto. rewrite IHF, (H _ _ H0). reflexivity. Qed.

Lemma prel_intro {A A' B B'} (R : A -> A' -> Prop) (S : B -> B' -> Prop) a b c d : R a c -> S b d -> prel R S (a, b) (c, d).
Proof. split; auto. Qed.
Lemma get_nth {A} (d : A) l l' i : get l i = get l' i -> nth i l d = nth i l' d.
Proof.
  unfold get. destruct (nth_error l i) as [a|] eqn:E; intros F; symmetry in F.
  - rewrite (nth_error_nth l i d E), (nth_error_nth l' i d F). reflexivity.
  - apply nth_error_None in E, F. rewrite !nth_overflow by auto. reflexivity.
Qed.

Lemma foldM_app' {S A} (f : S -> A -> option S) a b s : foldM f (a ++ b) s = bind (foldM f a s) (foldM f b).
Proof. revert s; induction a; intros s; cbn [foldM app]; [reflexivity|]. destruct (f s a); cbn [bind]; auto. Qed.
Lemma for_up_S {S} n (s : S) f : for_up 0 (Datatypes.S n) s f = (x <- for_up 0 n s f ;; f x n).
Proof.
  unfold for_up. rewrite !Nat.sub_0_r, seq_S, foldM_app'. cbn [Nat.add]. destruct (foldM f (seq 0 n) s); [|reflexivity].
  cbn [bind foldM]. destruct (f s0 n); reflexivity.
Qed.

Section Relation.
Variable R : num -> num -> Prop.
Hypothesis R0 : R n0 n0.
Hypothesis Rinf : R PInf PInf.
Hypothesis Radd : forall a b c d, R a b -> R c d -> R (nadd a c) (nadd b d).
Hypothesis Ropp : forall a b, R a b -> R (nopp a) (nopp b).
Hypothesis Rlt : forall a b c d, R a b -> R c d -> nlt a c = nlt b d.
Hypothesis Rnan : forall a b, R a b -> is_nan a = is_nan b.
Hypothesis Rmul : forall w a b, R a b -> R (nmul a w) (nmul b w).

Lemma Rsub a b c d : R a b -> R c d -> R (nsub a c) (nsub b d).
Proof. intros. unfold nsub. auto. Qed.
Lemma Rmin a b c d : R a b -> R c d -> R (nmin a c) (nmin b d).
Proof. intros X Y. unfold nmin. rewrite (Rlt _ _ _ _ Y X). destruct (nlt d b); auto. Qed.
Lemma Rmax a b c d : R a b -> R c d -> R (nmax a c) (nmax b d).
Proof. intros X Y. unfold nmax. rewrite (Rlt _ _ _ _ X Y). destruct (nlt b d); auto. Qed.
Lemma neqb_alt a b : neqb a b = negb (is_nan a) && negb (is_nan b) && (negb (nlt a b) && negb (nlt b a)).
Proof. destruct a, b; cbn; auto; rewrite ?andb_true_r; auto. Qed.
Lemma Reqb a b c d : R a b -> R c d -> neqb a c = neqb b d.
Proof. intros X Y. rewrite !neqb_alt, (Rnan _ _ X), (Rnan _ _ Y), (Rlt _ _ _ _ X Y), (Rlt _ _ _ _ Y X). reflexivity. Qed.
Hypothesis Rabs : forall a b, R a b -> R (nabs a) (nabs b).

Notation V := (lrel R).
Notation M := (mrel R).

Lemma V_zero n : V (repeat n0 n) (repeat n0 n).
Proof. apply lrel_repeat; auto. Qed.
Lemma M_zeros n k : M (zeros n k) (zeros n k).
Proof. apply lrel_repeat, V_zero. Qed.
Lemma V_zero_of l l' : V l l' -> V (repeat n0 (length l)) (repeat n0 (length l')).
Proof. intros F. rewrite (lrel_len _ _ _ F). apply V_zero. Qed.

(** one step of a structural proof *)
Ltac step := cbn beta zeta; match goal with
  | |- orel _ (match ?x with pair _ _ => _ end) (match ?y with pair _ _ => _ end) =>
      is_var x; is_var y; destruct x, y; cbn [fst snd prel] in *
  | H : prel _ _ _ _ |- _ => destruct H
  | H : _ /\ _ |- _ => destruct H
  | |- orel _ (bind ?x _) (bind ?x _) => apply orel_bind_eq; intros
  | |- orel _ (bind _ _) (bind _ _) => eapply orel_bind; [|intros]
  | |- orel _ (Some _) (Some _) => apply orel_some
  | |- orel _ (get2 _ _ _) (get2 _ _ _) => apply mrel_get2
  | |- orel _ (get _ _) (get _ _) => apply lrel_get
  | |- orel _ (set2 _ _ _ _) (set2 _ _ _ _) => apply mrel_set2
  | |- orel _ (set _ _ _) (set _ _ _) => apply lrel_set
  | |- orel _ (if ?b then _ else _) (if ?b then _ else _) => destruct b
  | |- orel _ (for_up _ _ _ _) (for_up _ _ _ _) => apply orel_for_up; [|intros]
  | |- orel _ (for_down _ _ _ _) (for_down _ _ _ _) => apply orel_for_down; [|intros]
  | |- orel _ (foldM _ ?l _) (foldM _ ?l _) => apply orel_foldM; [intros|]
  | |- orel _ (copy_into _ _) (copy_into _ _) => apply orel_copy
  | |- orel _ (slice _ _ _) (slice _ _ _) => apply orel_slice
  | |- orel _ None None => exact I
  | |- prel _ _ (_, _) (_, _) => apply prel_intro
  | |- R (nadd _ _) (nadd _ _) => apply Radd
  | |- R (nsub _ _) (nsub _ _) => apply Rsub
  | |- R (nopp _) (nopp _) => apply Ropp
  | |- R (nmin _ _) (nmin _ _) => apply Rmin
  | |- R (nmul _ _) (nmul _ _) => apply Rmul
  | |- R (nabs _) (nabs _) => apply Rabs
  | |- R n0 n0 => apply R0
  | |- R PInf PInf => apply Rinf
  | |- lrel _ [] [] => constructor
  | |- lrel _ (_ :: _) (_ :: _) => constructor
  | |- lrel _ (repeat _ _) (repeat _ _) => apply lrel_repeat
  | |- lrel _ (zeros _ _) (zeros _ _) => apply M_zeros
  | |- lrel _ (_ ++ _) (_ ++ _) => apply lrel_app
  | _ => eassumption
  end.
Ltac steps := repeat step; repeat step; repeat step.

(** ** TSP *)

Lemma fwd_pass_rel conn rd rd' f f' : (forall e, orel R (rd e) (rd' e)) -> V f f' -> orel V (fwd_pass conn rd f) (fwd_pass conn rd' f').
Proof. intros H F. unfold fwd_pass. steps. apply H. Qed.
Lemma bwd_pass_rel conn rd rd' f f' : (forall e, orel R (rd e) (rd' e)) -> V f f' -> orel V (bwd_pass conn rd f) (bwd_pass conn rd' f').
Proof. intros H F. unfold bwd_pass. steps. apply H. Qed.
Lemma out_pass_rel conn f f' b b' post wr o o' : V f f' -> V b b' -> (forall x y, R x y -> R (post x) (post y)) ->
  (forall o o' e x y, M o o' -> R x y -> orel M (wr o e x) (wr o' e y)) -> M o o' ->
  orel M (out_pass conn f b post wr o) (out_pass conn f' b' post wr o').
Proof. intros F B P W O. unfold out_pass. steps. apply W; auto. apply P. steps. Qed.
Lemma degree_update_rel n e E m m' o o' : M m m' -> M o o' -> orel M (degree_update n e E m o) (degree_update n e E m' o').
Proof.
  intros F O. unfold degree_update.
  eapply (orel_bind (prel (prel V V) M)); [|intros [[? ?] ?] [[? ?] ?] (_ & X); exact X].
  apply orel_for_up; [steps|]. intros node [[f b] u] [[f' b'] u'] ((A & B) & C). cbn [fst snd] in *. unfold degree_node.
  destruct (connections E node 0 [] []) as (c1 & c2).
  eapply orel_bind; [apply fwd_pass_rel; [intros; apply mrel_get2; exact F|exact A]|]. intros.
  eapply orel_bind; [apply bwd_pass_rel; [intros; apply mrel_get2; exact F|exact B]|]. intros.
  eapply orel_bind; [apply out_pass_rel; auto; intros; apply mrel_set2; auto|]. intros.
  eapply orel_bind; [apply fwd_pass_rel; [intros; apply mrel_get2; exact F|apply V_zero_of; auto]|]. intros.
  eapply orel_bind; [apply bwd_pass_rel; [intros; apply mrel_get2; exact F|apply V_zero_of; auto]|]. intros.
  eapply orel_bind; [apply out_pass_rel; auto; intros; apply mrel_set2; auto|]. intros. steps.
Qed.
Lemma subtour_update_rel e ds m m' o o' : M m m' -> M o o' -> orel M (subtour_update e ds m o) (subtour_update e ds m' o').
Proof.
  intros F O. unfold subtour_update.
  eapply (orel_bind (prel (prel V V) M)); [|intros [[? ?] ?] [[? ?] ?] (_ & X); exact X].
  apply orel_for_up; [steps|]. intros s [[f b] u] [[f' b'] u'] ((A & B) & C). cbn [fst snd] in *. unfold subtour_one.
  apply orel_bind_eq. intros conn _.
  eapply orel_bind; [apply fwd_pass_rel; [intros; apply mrel_get2; exact F|exact A]|]. intros.
  eapply orel_bind; [apply bwd_pass_rel; [intros; apply mrel_get2; exact F|exact B]|]. intros.
  eapply orel_bind; [apply out_pass_rel; auto; [intros; steps|intros; apply mrel_set2; auto]|]. intros. steps.
Qed.
Lemma plus_into_rel a a' b b' o o' : V a a' -> V b b' -> V o o' -> orel V (plus_into a b o) (plus_into a' b' o').
Proof. intros. unfold plus_into. eapply orel_transform2; eauto. Qed.
Lemma flip_rel E m m' o o' : M m m' -> M o o' -> orel M (flip_matrix m E o) (flip_matrix m' E o').
Proof. intros. unfold flip_matrix. steps. destruct a. steps. Qed.
Lemma edge_relaxed_rel e E c c' d d' o o' : M c c' -> M d d' -> M o o' ->
  orel M (edge_to_degree_relaxed e E c d o) (edge_to_degree_relaxed e E c' d' o').
Proof.
  intros. unfold edge_to_degree_relaxed. eapply orel_bind; [apply flip_rel; eauto|]. intros.
  apply orel_for_up; [auto|]. intros.
  eapply orel_bind; [apply lrel_get; eauto|]. intros. eapply orel_bind; [apply lrel_get; exact H|]. intros.
  eapply orel_bind; [apply lrel_get; eauto|]. intros. eapply orel_bind; [apply plus_into_rel; eauto|]. intros. steps.
Qed.
Lemma sum_rows_rel e r r' : M r r' -> orel V (sum_rows e r) (sum_rows e r').
Proof. intros. unfold sum_rows. eapply orel_foldM2; [eauto| |apply V_zero]. intros. apply plus_into_rel; auto. Qed.
Lemma combined_rel e E d d' : M d d' -> orel V (combined_degree e E d) (combined_degree e E d').
Proof. intros. unfold combined_degree. steps. destruct a. steps. Qed.
Lemma edge_to_subtour_rel e ds c c' d d' s s' E : V c c' -> M d d' -> M s s' ->
  orel M (edge_to_subtour e ds c d s E) (edge_to_subtour e ds c' d' s' E).
Proof.
  intros. unfold edge_to_subtour. destruct (_ =? 1).
  - eapply orel_bind; [apply combined_rel; eauto|]. intros. steps.
  - eapply orel_bind; [apply sum_rows_rel; eauto|]. intros.
    eapply orel_bind; [apply combined_rel; eauto|]. intros. steps.
Qed.
Lemma edge_augmented_rel e d d' s s' E c c' o o' : M d d' -> M s s' -> M c c' -> M o o' ->
  orel M (edge_to_degree_augmented e d s E c o) (edge_to_degree_augmented e d' s' E c' o').
Proof.
  intros. unfold edge_to_degree_augmented. eapply orel_bind; [apply sum_rows_rel; eauto|]. intros.
  steps. destruct a0. steps.
Qed.
Lemma filter_row_rel flag al it d d' o o' x x' : V d d' -> V o o' -> V x x' ->
  orel (prel V V) (filter_row flag al it d o x) (filter_row flag al it d' o' x').
Proof.
  intros A B C. unfold filter_row. destruct (_ && _).
  - assert (D : V (map (fun c => nmul c (nsub n1 al)) d) (map (fun c => nmul c (nsub n1 al)) d')) by (eapply lrel_map; eauto).
    assert (O : V (map (fun c => nmul c al) o) (map (fun c => nmul c al) o')) by (eapply lrel_map; eauto).
    eapply orel_bind.
    + destruct (it =? 0); [steps|]. eapply orel_bind; [eapply orel_transform2; eauto|]. intros. steps.
    + intros. steps.
  - steps.
Qed.
Lemma filter_at_rel flag al it i d d' o o' x x' : M d d' -> M o o' -> M x x' ->
  orel (prel M M) (filter_at flag al it i d o x) (filter_at flag al it i d' o' x').
Proof.
  intros A B C. unfold filter_at. eapply orel_bind; [apply lrel_get; exact A|]. intros.
  eapply orel_bind; [apply lrel_get; exact C|]. intros. destruct (_ && _).
  - eapply orel_bind; [apply lrel_get; exact B|]. intros.
    eapply orel_bind; [apply filter_row_rel; eauto|]. intros [? ?] [? ?] (? & ?). cbn [fst snd] in *. steps.
  - eapply orel_bind; [apply filter_row_rel; eauto|]. intros [? ?] [? ?] (? & ?). cbn [fst snd] in *. steps.
Qed.
Lemma filtering_rel flag al it n d d' o o' x x' : M d d' -> M o o' -> M x x' ->
  orel (prel M M) (process_filtering flag al it n d o x) (process_filtering flag al it n d' o' x').
Proof.
  intros A B C. unfold process_filtering. apply orel_for_up; [steps|]. intros i [? ?] [? ?] (? & ?). cbn [fst snd] in *.
  apply filter_at_rel; auto.
Qed.

Definition in_rel (a b : tsp_inputs) : Prop :=
  tsp_edges a = tsp_edges b /\ V (tsp_cost_edge a) (tsp_cost_edge b) /\ M (tsp_cost_matrix a) (tsp_cost_matrix b) /\
  M (tsp_degree_cost a) (tsp_degree_cost b) /\ M (tsp_edge2degree a) (tsp_edge2degree b).
Definition par_rel (p q : tsp_params) : Prop :=
  p_n p = p_n q /\ p_e p = p_e q /\ p_iters p = p_iters q /\ p_aug p = p_aug q /\ p_reset p = p_reset q /\
  p_filt p = p_filt q /\ p_alpha p = p_alpha q /\ R (p_thr p) (p_thr q) /\ p_max_count p = p_max_count q /\
  in_rel (p_in p) (p_in q) /\ p_ord p = p_ord q.
Definition msg_rel (a b : tsp_msgs) : Prop :=
  M (m_e2d a) (m_e2d b) /\ M (m_deg_dummy a) (m_deg_dummy b) /\ M (m_deg_old a) (m_deg_old b) /\ M (m_deg a) (m_deg b) /\
  M (m_sub_dummy a) (m_sub_dummy b) /\ M (m_sub_old a) (m_sub_old b) /\ M (m_sub a) (m_sub b).
Definition sol_rel (a b : tsp_sol) : Prop :=
  V (r_extr a) (r_extr b) /\ V (r_intr a) (r_intr b) /\ r_selected a = r_selected b /\ R (r_cost a) (r_cost b).
Definition st_rel (a b : tsp_state) : Prop :=
  msg_rel (t_msgs a) (t_msgs b) /\ sol_rel (t_sol a) (t_sol b) /\ t_an a = t_an b /\ t_cnt a = t_cnt b.
Definition out_rel (a b : outcome) : Prop :=
  match a, b with
  | Returned s, Returned s' | Running s, Running s' => st_rel s s'
  | Exited, Exited => True
  | _, _ => False
  end.

Ltac params H := destruct H as (Hn & He & Hi & Ha & Hr & Hf & Hal & Hthr & Hmc & (HE & Hce & Hcm & Hdc & Hed) & Hord).
Lemma init_rel p q : par_rel p q -> st_rel (tsp_init p) (tsp_init q).
Proof.
  intros H. params H. unfold tsp_init, st_rel, msg_rel, sol_rel. cbn. rewrite Hn, He.
  repeat split; auto using M_zeros, V_zero; constructor.
Qed.
Lemma analyse_rel p q s a : par_rel p q -> analyse p s a = analyse q s a.
Proof. intros H. params H. unfold analyse. rewrite Hord, Hmc, Hn, HE. reflexivity. Qed.
Lemma hard_rel t t' v v' : R t t' -> V v v' -> hard_decision t v = hard_decision t' v'.
Proof.
  intros T F. unfold hard_decision. eapply lrel_map_eq; [exact F|]. intros a b X. unfold ngt. rewrite (Rlt _ _ _ _ T X). reflexivity.
Qed.
Lemma cost_rel hd c c' : V c c' -> orel R (selection_cost hd c) (selection_cost hd c').
Proof. intros. unfold selection_cost. steps. Qed.
Lemma accumulate_rel r r' : V r r' -> R (accumulate r) (accumulate r').
Proof. intros. unfold accumulate. eapply lrel_fold_left; eauto. Qed.
Lemma extrinsic_relaxed_rel m m' o o' : M m m' -> V o o' -> orel V (extrinsic_relaxed m o) (extrinsic_relaxed m' o').
Proof. intros F O. unfold extrinsic_relaxed. rewrite <- (lrel_len _ _ _ F). steps. apply accumulate_rel; auto. Qed.
Lemma extrinsic_augmented_rel m m' s s' o o' : M m m' -> M s s' -> V o o' ->
  orel V (extrinsic_augmented m s o) (extrinsic_augmented m' s' o').
Proof.
  intros F S O. unfold extrinsic_augmented. eapply orel_bind; [apply extrinsic_relaxed_rel; eauto|]. intros.
  eapply orel_foldM2; [exact S| |auto]. intros. eapply orel_transform2; eauto.
Qed.
Lemma intrinsic_rel x x' c c' o o' : V x x' -> V c c' -> V o o' -> orel V (intrinsic_output x c o) (intrinsic_output x' c' o').
Proof. intros. unfold intrinsic_output. eapply orel_transform2; eauto. Qed.
Ltac msgs H := destruct H as (?M1 & ?M2 & ?M3 & ?M4 & ?M5 & ?M6 & ?M7).
Lemma relaxed_step_rel p q m m' i : par_rel p q -> msg_rel m m' -> orel msg_rel (relaxed_step p m i) (relaxed_step q m' i).
Proof.
  intros H X. params H. msgs X. unfold relaxed_step. rewrite <- Hn, <- He, <- Hf, <- Hal, <- HE.
  eapply orel_bind; [apply degree_update_rel; eauto|]. intros.
  eapply orel_bind; [apply filtering_rel; eauto|]. intros [? ?] [? ?] (? & ?). cbn [fst snd] in *.
  eapply orel_bind; [apply edge_relaxed_rel; eauto|]. intros. apply orel_some. unfold msg_rel. cbn. repeat split; auto.
Qed.
Lemma iterate_relaxed_rel p q s s' : par_rel p q -> st_rel s s' -> orel st_rel (iterate_relaxed p s) (iterate_relaxed q s').
Proof.
  intros H (X & (Y1 & Y2 & Y3 & Y4) & Z & W). pose proof H as H'. params H'. unfold iterate_relaxed. rewrite <- Hi, <- He, <- HE.
  eapply orel_bind; [apply orel_for_up; [exact X|]; intros; apply relaxed_step_rel; auto|]. intros m m' Hm. pose proof Hm as Hm'. msgs Hm'.
  eapply orel_bind; [apply extrinsic_relaxed_rel; eauto|]. intros.
  eapply orel_bind; [apply intrinsic_rel; eauto|]. intros x y Hxy.
  rewrite (hard_rel _ _ _ _ Hthr Hxy). apply orel_bind_eq. intros sel _.
  eapply orel_bind; [apply cost_rel; eauto|]. intros. rewrite Z, (analyse_rel p q _ _ H). apply orel_bind_eq. intros an _.
  apply orel_some. unfold st_rel, sol_rel. cbn. repeat split; auto; apply Hm.
Qed.
Lemma reset_rel E c c' o o' : M c c' -> M o o' -> orel M (reset_messages E c o) (reset_messages E c' o').
Proof. intros. unfold reset_messages. steps. destruct a. steps. Qed.
Lemma augmented_step_rel p q ds m m' i : par_rel p q -> msg_rel m m' -> orel msg_rel (augmented_step p ds m i) (augmented_step q ds m' i).
Proof.
  intros H X. params H. msgs X. unfold augmented_step. rewrite <- Hn, <- He, <- Hf, <- Hal, <- HE.
  eapply orel_bind; [apply degree_update_rel; eauto|]. intros.
  eapply orel_bind; [apply filtering_rel; eauto|]. intros [? ?] [? ?] (? & ?). cbn [fst snd] in *.
  eapply orel_bind; [apply edge_to_subtour_rel; eauto|]. intros.
  eapply orel_bind; [apply subtour_update_rel; eauto|]. intros.
  eapply orel_bind; [apply filtering_rel; eauto|]. intros [? ?] [? ?] (? & ?). cbn [fst snd] in *.
  eapply orel_bind; [apply edge_augmented_rel; eauto|]. intros. apply orel_some. unfold msg_rel. cbn. repeat split; auto.
Qed.
Lemma nan_rel m m' : M m m' -> existsb (existsb is_nan) m = existsb (existsb is_nan) m'.
Proof. intros F. eapply lrel_existsb; [exact F|]. intros. eapply lrel_existsb; eauto. Qed.
Lemma iterate_augmented_rel p q s s' : par_rel p q -> st_rel s s' -> orel out_rel (iterate_augmented p s) (iterate_augmented q s').
Proof.
  intros H (X & (Y1 & Y2 & Y3 & Y4) & Z & W). pose proof H as H'. params H'. unfold iterate_augmented.
  rewrite <- Hi, <- He, <- HE, <- Hr, <- Z, <- W, <- Hmc. msgs X.
  eapply orel_bind; [destruct (p_reset p); [apply reset_rel; eauto|steps]|]. intros.
  eapply (orel_bind msg_rel).
  { apply orel_for_up; [|intros; apply augmented_step_rel; auto]. unfold msg_rel. cbn. repeat split; auto.
    apply lrel_app; auto using M_zeros. }
  intros m m' Hm. pose proof Hm as Hm'. msgs Hm'. rewrite (nan_rel _ _ M0). destruct (existsb _ _); [exact I|].
  eapply orel_bind; [apply extrinsic_augmented_rel; eauto|]. intros.
  eapply orel_bind; [apply intrinsic_rel; eauto|]. intros x y Hxy.
  rewrite (hard_rel _ _ _ _ Hthr Hxy). apply orel_bind_eq. intros sel _.
  eapply orel_bind; [apply cost_rel; eauto|]. intros. rewrite (analyse_rel p q _ _ H). apply orel_bind_eq. intros an _.
  apply orel_some. unfold out_rel, st_rel, sol_rel. cbn. repeat split; auto; apply Hm.
Qed.
Lemma extend_rel k e m m' : msg_rel m m' -> msg_rel (extend_sub k e m) (extend_sub k e m').
Proof. intros X. msgs X. unfold extend_sub, msg_rel. cbn. repeat split; auto; apply lrel_app; auto using M_zeros. Qed.
Lemma set_msgs_rel s s' m m' : st_rel s s' -> msg_rel m m' -> st_rel (set_msgs s m) (set_msgs s' m').
Proof. intros (X & Y & Z & W) Q. unfold set_msgs, st_rel. cbn. auto. Qed.
Lemma loop_rel p q mx : par_rel p q -> forall fuel s s', st_rel s s' ->
  orel out_rel (augmentation_loop fuel p mx s) (augmentation_loop fuel q mx s').
Proof.
  intros H. pose proof H as H'. params H'.
  induction fuel as [|fuel IH]; intros s s' S; pose proof S as (X & (Y1 & Y2 & Y3 & Y4) & Z & W); cbn [augmentation_loop];
    rewrite <- Z, <- W, <- Ha, (Reqb _ _ _ _ Y4 R0); (destruct (_ && _); [|exact S]); (destruct (_ || _); [exact S|]);
    (destruct (neqb _ _); [exact I|]).
  - exact S.
  - eapply orel_bind; [apply iterate_augmented_rel; eauto|]. intros [t| |t] [t'| |t'] T; try contradiction; try exact T.
    pose proof T as (X' & _ & Z' & W'). rewrite <- Z', <- W'. destruct (_ =? _)%Z; [exact T|].
    destruct X' as (? & ? & ? & ? & ? & ? & L). pose proof (lrel_len _ _ _ L) as L'. rewrite <- L'.
    apply IH. destruct (_ =? _); [exact T|]. rewrite <- He. apply set_msgs_rel; auto. apply extend_rel. apply T.
Qed.
Lemma solve_rel p q fuel mx : par_rel p q -> orel out_rel (tsp_solve fuel p mx) (tsp_solve fuel q mx).
Proof.
  intros H. unfold tsp_solve. eapply orel_bind; [apply iterate_relaxed_rel; eauto; apply init_rel; auto|].
  intros s s' S. pose proof S as (X & _ & Z & W). pose proof H as H'. params H'. rewrite <- Z, <- Ha. destruct (_ && _); [|exact S].
  unfold perform_augmentation. apply loop_rel; auto. rewrite <- Z. destruct (_ <? _); [|exact S].
  rewrite <- He. apply set_msgs_rel; auto. apply extend_rel; auto.
Qed.

(** results of a call *)
Definition res_rel (a b : tsp_result) : Prop :=
  V (o_extr a) (o_extr b) /\ o_num_aug a = o_num_aug b /\ o_num_constraints a = o_num_constraints b /\ R (o_cost a) (o_cost b) /\
  o_noimp_flag a = o_noimp_flag b /\ o_nocons_flag a = o_nocons_flag b /\ o_osc_flag a = o_osc_flag b /\ o_arrays a = o_arrays b.
Definition call_rel (a b : call_result) : Prop :=
  match a, b with
  | Done r, Done r' => res_rel r r'
  | Killed, Killed | Unfinished, Unfinished => True
  | _, _ => False
  end.
Lemma process_outputs_rel p q s s' b b' t e pa sz : par_rel p q -> st_rel s s' -> V b b' ->
  orel res_rel (process_outputs p s b t e pa sz) (process_outputs q s' b' t e pa sz).
Proof.
  intros H (X & (Y1 & Y2 & Y3 & Y4) & Z & W) B. params H. msgs X. unfold process_outputs. rewrite <- He, <- Z, <- W, <- Y3.
  eapply orel_bind; [apply orel_slice; eauto|]. intros. eapply orel_bind; [apply orel_copy; eauto|]. intros.
  apply orel_bind_eq. intros. apply orel_some. unfold res_rel. cbn. repeat split; auto. eapply lrel_len; eauto.
Qed.
Lemma inputs_rel n e ed c c' m m' g g' d d' : V c c' -> V m m' -> V g g' -> V d d' ->
  orel in_rel (tsp_process_inputs n e ed c m g d) (tsp_process_inputs n e ed c' m' g' d').
Proof.
  intros. unfold tsp_process_inputs. eapply orel_bind; [apply orel_slice; eauto|]. intros. do 2 (apply orel_bind_eq; intros).
  eapply orel_bind; [apply orel_rows; eauto|]. intros. eapply orel_bind; [apply orel_rows; eauto|]. intros.
  eapply orel_bind; [apply orel_rows; eauto|]. intros. apply orel_some. unfold in_rel. cbn. auto 6.
Qed.
Lemma wrapper_tsp_rel fuel iters n e aug reset filt alpha ed ce ce' cm cm' g g' d d' b b' thr thr' bt be bp bs mc ma ord :
  V ce ce' -> V cm cm' -> V g g' -> V d d' -> V b b' -> R thr thr' ->
  orel call_rel (wrapper_tsp fuel iters n e aug reset filt alpha ed ce cm g d b thr bt be bp bs mc ma ord)
    (wrapper_tsp fuel iters n e aug reset filt alpha ed ce' cm' g' d' b' thr' bt be bp bs mc ma ord).
Proof.
  intros. unfold wrapper_tsp. eapply orel_bind; [apply inputs_rel; eauto|]. intros i i' Hin.
  assert (P : par_rel (call_params iters n e aug reset filt alpha thr mc i ord) (call_params iters n e aug reset filt alpha thr' mc i' ord))
    by (unfold par_rel, call_params; cbn; repeat split; auto; apply Hin).
  eapply orel_bind; [apply solve_rel; exact P|]. intros [s| |s] [s'| |s'] S; try contradiction; cbn.
  - eapply orel_bind; [apply process_outputs_rel; eauto|]. intros. exact H5.
  - exact I.
  - exact I.
Qed.

(** Python front end *)
Lemma py_edges_rel cm cm' : M cm cm' -> py_edges cm = py_edges cm'.
Proof.
  intros F. unfold py_edges. rewrite <- (lrel_len _ _ _ F). f_equal. apply map_ext. intros i.
  assert (Fr : V (nth i cm []) (nth i cm' [])).
  { pose proof (lrel_get _ _ _ i F) as G. unfold get in G. destruct (nth_error cm i) eqn:E, (nth_error cm' i) eqn:E'; try contradiction.
    - rewrite (nth_error_nth _ _ _ E), (nth_error_nth _ _ _ E'). exact G.
    - apply nth_error_None in E, E'. rewrite !nth_overflow by auto. constructor. }
  rewrite <- (lrel_len _ _ _ Fr). f_equal. apply filter_ext_in. intros j J. apply in_seq in J.
  pose proof (lrel_get _ _ _ j Fr) as G. unfold get in G. set (r := nth i cm []) in *. set (r' := nth i cm' []) in *.
  destruct (nth_error r j) eqn:E; [|apply nth_error_None in E; lia]. destruct (nth_error r' j) eqn:E'; [|contradiction].
  rewrite (nth_error_nth _ _ _ E), (nth_error_nth _ _ _ E'). f_equal. apply Reqb; auto.
Qed.
Lemma py_arrays_rel n cm cm' E : M cm cm' -> orel (prel V M) (py_tsp_arrays n cm E) (py_tsp_arrays n cm' E).
Proof.
  intros F. unfold py_tsp_arrays. apply orel_for_up; [split; cbn; [apply V_zero|apply M_zeros]|].
  intros i [a b] [a' b'] (A & B). cbn [fst snd] in *. apply orel_bind_eq. intros [u v] _. steps.
Qed.
Definition opt_rel (o o' : tsp_options) : Prop :=
  q_iters o = q_iters o' /\ q_aug o = q_aug o' /\ q_reset o = q_reset o' /\ q_filt o = q_filt o' /\ q_alpha o = q_alpha o' /\
  R (q_thr o) (q_thr o') /\ q_max_count o = q_max_count o' /\ q_max_augm o = q_max_augm o'.
Lemma py_run_tsp_rel fuel o o' n cm cm' ord : opt_rel o o' -> M cm cm' ->
  orel call_rel (py_run_tsp fuel o n cm ord) (py_run_tsp fuel o' n cm' ord).
Proof.
  intros (A1 & A2 & A3 & A4 & A5 & A6 & A7 & A8) F. unfold py_run_tsp. rewrite <- (py_edges_rel cm cm' F).
  eapply orel_bind; [apply py_arrays_rel; exact F|]. intros [ce m] [ce' m'] (X & Y). cbn [fst snd] in *.
  rewrite <- A1, <- A2, <- A3, <- A4, <- A5, <- A7, <- A8.
  apply wrapper_tsp_rel; auto using lrel_concat, V_zero.
Qed.

(** ** K-SAT *)

Lemma zero_rows_rel m m' : M m m' -> M (zero_rows m) (zero_rows m').
Proof. intros F. unfold zero_rows. eapply lrel_map; [exact F|]. intros. eapply lrel_map; eauto. Qed.
Lemma lit_cost_rel r r' cx ty s : V r r' -> orel R (lit_cost r cx ty s) (lit_cost r' cx ty s).
Proof. intros. unfold lit_cost. steps. Qed.
Lemma ksat_forward_rel k c c' t t' : (forall i, orel R (c i) (c' i)) -> M t t' -> orel M (ksat_forward k c t) (ksat_forward k c' t').
Proof. intros H F. unfold ksat_forward. steps. apply H. Qed.
Lemma ksat_backward_rel k c c' t t' : (forall i, orel R (c i) (c' i)) -> M t t' -> orel M (ksat_backward k c t) (ksat_backward k c' t').
Proof.
  intros H F. unfold ksat_backward. eapply orel_bind; [apply lrel_set; [exact F|repeat constructor; auto]|]. intros.
  apply orel_for_down; [auto|]. intros. eapply orel_bind; [apply H|]. intros.
  eapply (orel_bind M); [destruct (_ =? _); steps|]. intros. steps.
Qed.
Lemma ksat_one_rel k m m' cs ty st st' c : M m m' -> prel (prel M M) M st st' ->
  orel (prel (prel M M) M) (ksat_one k m cs ty st c) (ksat_one k m' cs ty st' c).
Proof.
  intros F. destruct st as [[f b] o], st' as [[f' b'] o']. intros ((A & B) & C). cbn [fst snd] in *. unfold ksat_one.
  do 2 (apply orel_bind_eq; intros).
  assert (K : forall i, orel R (row <- get m c;; lit_cost row a a0 i) (row <- get m' c;; lit_cost row a a0 i)).
  { intros. eapply orel_bind; [apply lrel_get; exact F|]. intros. apply lit_cost_rel; auto. }
  eapply orel_bind; [apply ksat_forward_rel; eauto|]. intros. eapply orel_bind; [apply ksat_backward_rel; eauto|]. intros.
  eapply (orel_bind M); [|intros; steps]. apply orel_for_up; [auto|]. intros.
  eapply orel_bind; [apply mrel_get2; eauto|]. intros. eapply orel_bind; [apply mrel_get2; eauto|]. intros.
  eapply orel_bind; [apply mrel_get2; eauto|]. intros. eapply orel_bind; [apply K|]. intros.
  eapply (orel_bind R); [destruct (_ =? _); steps|]. intros. do 2 (apply orel_bind_eq; intros).
  eapply orel_bind; [apply mrel_get2; eauto|]. intros xo yo Ho. cbv zeta.
  match goal with |- orel _ (if nlt (nabs xo) (nabs ?v) then _ else _) (if nlt (nabs yo) (nabs ?v') then _ else _) =>
    assert (X : R v v') by steps; rewrite (Rlt _ _ _ _ (Rabs _ _ Ho) (Rabs _ _ X)) end.
  destruct (nlt _ _); steps.
Qed.
Lemma ksat_update_rel nc k m m' o o' cs ty : M m m' -> M o o' -> orel M (ksat_update nc k m o cs ty) (ksat_update nc k m' o' cs ty).
Proof.
  intros F O. unfold ksat_update.
  eapply (orel_bind (prel (prel M M) M)); [|intros [[? ?] ?] [[? ?] ?] (_ & X); exact X].
  apply orel_for_up; [|intros; apply ksat_one_rel; auto]. repeat split; cbn; auto using zero_rows_rel; apply lrel_repeat; repeat constructor; auto.
Qed.
Lemma variable_update_rel nv m m' o o' u w w' vc : M m m' -> M o o' -> V w w' ->
  orel M (variable_update nv m o u w vc) (variable_update nv m' o' u w' vc).
Proof.
  intros F O W. unfold variable_update. eapply orel_bind; [apply orel_foldM; [|apply V_zero]; intros; steps|]. intros.
  eapply (orel_bind V).
  { apply orel_for_up; [apply V_zero|]. intros. apply orel_bind_eq. intros.
    eapply (orel_bind V); [steps|]. intros. steps. }
  intros. apply orel_for_up; [apply zero_rows_rel; auto|]. intros. do 2 (apply orel_bind_eq; intros).
  apply orel_for_up; [auto|]. intros. apply orel_bind_eq; intros. eapply orel_bind; [apply mrel_get2; eauto|]. intros.
  eapply orel_bind; [apply lrel_get; eauto|]. intros. eapply orel_bind; [apply mrel_get2; eauto|]. intros.
  match goal with |- orel _ (if nlt (nabs ?a) (nabs ?v) then _ else _) (if nlt (nabs ?b) (nabs ?v') then _ else _) =>
    assert (X : R v v') by steps; assert (Y : R a b) by auto; rewrite (Rlt _ _ _ _ (Rabs _ _ Y) (Rabs _ _ X)) end.
  destruct (nlt _ _); steps.
Qed.
Lemma ksat_inputs_rel nv nc k nu u vc sz cx ty me me' v v' : V me me' -> V v v' ->
  orel (fun a b => ks_used a = ks_used b /\ V (ks_metrics a) (ks_metrics b) /\ ks_conx a = ks_conx b /\ ks_type a = ks_type b /\
                   M (ks_var2clause a) (ks_var2clause b) /\ ks_varconx a = ks_varconx b)
    (ksat_process_inputs nv nc k nu u vc sz cx ty me v) (ksat_process_inputs nv nc k nu u vc sz cx ty me' v').
Proof.
  intros. unfold ksat_process_inputs. apply orel_bind_eq; intros. eapply orel_bind; [apply orel_slice; eauto|]. intros.
  do 3 (apply orel_bind_eq; intros). eapply orel_bind; [apply orel_rows; eauto|]. intros. apply orel_bind_eq; intros.
  apply orel_some. cbn. auto 7.
Qed.
Lemma wrapper_ksat_rel iters nv nc nu al fl u vc sz cx ty me me' v v' k : V me me' -> V v v' ->
  orel V (wrapper_ksat iters nv nc nu al fl u vc sz cx ty me v k) (wrapper_ksat iters nv nc nu al fl u vc sz cx ty me' v' k).
Proof.
  intros. unfold wrapper_ksat. eapply orel_bind; [apply ksat_inputs_rel; eauto|]. intros i i' (I1 & I2 & I3 & I4 & I5 & I6).
  eapply (orel_bind (prel (fun _ _ => True) V)); [|intros [? ?] [? ?] (_ & X); exact X]. unfold ksat_iterate.
  eapply (orel_bind (fun a b => M (kst_var a) (kst_var b) /\ M (kst_dummy a) (kst_dummy b) /\ M (kst_old a) (kst_old b) /\ M (kst_msg a) (kst_msg b))).
  { apply orel_for_up; [cbn; auto using M_zeros|]. intros it s s' (A & B & C & D). unfold ksat_step. rewrite <- I1, <- I3, <- I4, <- I6.
    eapply orel_bind; [apply ksat_update_rel; eauto|]. intros.
    eapply orel_bind; [apply filtering_rel; eauto|]. intros [? ?] [? ?] (? & ?). cbn [fst snd] in *.
    eapply orel_bind; [apply variable_update_rel; eauto|]. intros. apply orel_some. cbn. auto. }
  intros s s' (A & B & C & D). eapply (orel_bind V).
  { unfold ksat_update_extrinsic. steps. }
  intros. apply orel_some. split; cbn; auto.
Qed.

(** Python side of K-SAT *)
Hypothesis Rnan_eq : forall a b, R a b -> is_nan a = true -> a = b.
Lemma Rle a b c d : R a b -> R c d -> nleb a c = nleb b d.
Proof.
  intros X Y. assert (E : forall u v, nleb u v = negb (is_nan u) && negb (is_nan v) && negb (nlt v u)) by (intros [] []; cbn; auto).
  rewrite !E, (Rnan _ _ X), (Rnan _ _ Y), (Rlt _ _ _ _ Y X). reflexivity.
Qed.
Lemma decide_rel t t' v v' : R t t' -> R v v' -> is_nan t = false -> py_decide t v = py_decide t' v'.
Proof.
  intros T X N. unfold py_decide, ngt. rewrite (Rle _ _ _ _ X T), (Rlt _ _ _ _ T X).
  destruct (nleb v' t') eqn:A; [reflexivity|]. destruct (nlt t' v') eqn:B; [reflexivity|].
  apply Rnan_eq; [exact X|]. rewrite (Rnan _ _ X). rewrite (Rnan _ _ T) in N. destruct t', v'; cbn in *; try discriminate; auto.
  rewrite B in A. discriminate A.
Qed.
Lemma ksat_intrinsic_rel f m m' x x' : V m m' -> V x x' -> orel V (py_ksat_intrinsic f m x) (py_ksat_intrinsic f m' x').
Proof.
  intros A B. unfold py_ksat_intrinsic. rewrite <- (lrel_len _ _ _ B). eapply (orel_bind V); [steps|]. intros. apply orel_some.
  eapply lrel_zip; eauto.
Qed.
Lemma initial_messages_rel nv f m m' : V m m' -> orel M (initial_messages nv f m) (initial_messages nv f m').
Proof. intros A. unfold initial_messages. steps. Qed.
Lemma ksat_finish_rel f ord2 ord3 t t' pp post m m' x x' : V m m' -> V x x' -> R t t' -> is_nan t = false ->
  py_ksat_finish f ord2 ord3 t pp post m x = py_ksat_finish f ord2 ord3 t' pp post m' x'.
Proof.
  intros A B T N. unfold py_ksat_finish. pose proof (ksat_intrinsic_rel f _ _ _ _ A B) as I.
  destruct (py_ksat_intrinsic f m x), (py_ksat_intrinsic f m' x'); try contradiction; [|reflexivity]. cbn [bind].
  unfold hard_decision_analysis. rewrite (lrel_map_eq R (py_decide t) (py_decide t') l l0); auto. intros; apply decide_rel; auto.
Qed.

(** ** Python side of TSP *)

Lemma np_less_rel a b c d : R a b -> R c d -> np_less a c = np_less b d.
Proof. intros X Y. unfold np_less. rewrite (Rnan _ _ X), (Rnan _ _ Y), (Rlt _ _ _ _ X Y). reflexivity. Qed.
Lemma argmin_rel l l' b b' k i : V l l' -> R b b' -> argmin_from b k i l = argmin_from b' k i l'.
Proof.
  intros F; revert b b' k i; induction F; intros b b' k i X; cbn [argmin_from]; auto.
  rewrite (np_less_rel _ _ _ _ H X). destruct (np_less _ _); apply IHF; auto.
Qed.
Lemma np_argmin_rel l l' : V l l' -> np_argmin l = np_argmin l'.
Proof. intros []; cbn [np_argmin]; auto. f_equal. apply argmin_rel; auto. Qed.
Lemma mapM_get_rel v v' idx : V v v' -> orel V (mapM (get v) idx) (mapM (get v') idx).
Proof. intros F. eapply orel_mapM; [apply lrel_eq|]. intros a _ <-. apply lrel_get; auto. Qed.
Lemma weakest_rel E v v' idx : V v v' -> weakest E v idx = weakest E v' idx.
Proof.
  intros F. unfold weakest. pose proof (mapM_get_rel v v' idx F) as G.
  destruct (mapM (get v) idx), (mapM (get v') idx); try contradiction; [|reflexivity]. cbn [bind].
  rewrite (np_argmin_rel (map nabs l) (map nabs l0)); [reflexivity|]. eapply lrel_map; eauto.
Qed.
Lemma trim_rel E v v' : V v v' -> forall fuel conns per removed, trim fuel E v conns per removed = trim fuel E v' conns per removed.
Proof.
  intros F. induction fuel; intros; cbn [trim]; destruct (1 <? _); auto.
  destruct (mapM _ _); [|reflexivity]. cbn [bind]. rewrite (weakest_rel E v v' l F). destruct (nonempty l); [|reflexivity].
  destruct (weakest E v' l); [|reflexivity]. cbn [bind]. apply IHfuel.
Qed.
Lemma foldM_ext' {S A} (f g : S -> A -> option S) l : (forall s a, f s a = g s a) -> forall s, foldM f l s = foldM g l s.
Proof. intros H. induction l; intros s; cbn [foldM]; auto. rewrite H. destruct (g s a); cbn [bind]; auto. Qed.
Lemma removed_degree_rel E v v' sel : V v v' -> removed_degree E v sel = removed_degree E v' sel.
Proof.
  intros F. unfold removed_degree. apply foldM_ext'. intros s k. unfold trim_node. rewrite (trim_rel E v v' F).
  destruct (trim _ E v' _ _ _); [|reflexivity]. cbn [bind]. apply trim_rel; auto.
Qed.
Lemma removed_subtours_rel E v v' paths br : V v v' -> removed_subtours E v paths br = removed_subtours E v' paths br.
Proof. intros F. unfold removed_subtours. apply foldM_ext'. intros s [p b]. cbn [fst snd]. rewrite (weakest_rel E v v' _ F). reflexivity. Qed.
Lemma py_sum_rel l l' : V l l' -> R (py_sum l) (py_sum l').
Proof. intros. unfold py_sum. eapply lrel_fold_left; eauto. Qed.
Lemma tour_cost_rel E c c' tour : V c c' -> orel R (tour_cost E c tour) (tour_cost E c' tour).
Proof. intros F. unfold tour_cost. eapply orel_bind; [apply mapM_get_rel; exact F|]. intros. apply orel_some, py_sum_rel; auto. Qed.
Lemma best_combination_rel cost cost' nodes old : (forall v, orel R (cost v) (cost' v)) ->
  orel (prel R eq) (best_combination cost nodes old) (best_combination cost' nodes old).
Proof.
  intros F. unfold best_combination. apply orel_foldM; [|split; auto]. intros v [m o] [m' o'] (A & B). cbn [fst snd] in *. subst o'.
  eapply orel_bind; [apply F|]. intros c c' C. rewrite (Rlt _ _ _ _ C A). apply orel_some. destruct (nlt _ _); split; auto.
Qed.
Lemma add_missing_rel cm cm' missing : M cm cm' -> forall fuel added cl cr tour,
  add_missing fuel cm missing added cl cr tour = add_missing fuel cm' missing added cl cr tour.
Proof.
  intros F. induction fuel; intros; cbn [add_missing]; destruct (_ =? _); auto. cbv zeta.
  destruct (get tour 0) as [n|]; [|reflexivity]. cbn [bind]. destruct (get tour _) as [na|]; [|reflexivity]. cbn [bind].
  pose proof (best_combination_rel (fun v => get2 cm v n) (fun v => get2 cm' v n) (filter (fun v => negb (mem v added)) missing) cl
    (fun v => mrel_get2 R cm cm' v n F)) as B1.
  destruct (best_combination (fun v => get2 cm v n) _ _) as [[m1 c1]|], (best_combination (fun v => get2 cm' v n) _ _) as [[m1' c1']|];
    try contradiction; [|reflexivity]. destruct B1 as (B1 & B1'). cbn [fst snd bind] in *. subst c1'.
  pose proof (best_combination_rel (fun v => get2 cm na v) (fun v => get2 cm' na v) (filter (fun v => negb (mem v added)) missing) cr
    (fun v => mrel_get2 R cm cm' na v F)) as B2.
  destruct (best_combination (fun v => get2 cm na v) _ _) as [[m2 c2]|], (best_combination (fun v => get2 cm' na v) _ _) as [[m2' c2']|];
    try contradiction; [|reflexivity]. destruct B2 as (B2 & B2'). cbn [fst snd bind] in *. subst c2'.
  rewrite (np_argmin_rel [m1; m2] [m1'; m2']) by (repeat constructor; auto).
  destruct (np_argmin _); [|reflexivity]. cbn [bind]. destruct (_ =? 0).
  - destruct c1; [|reflexivity]. cbn [bind]. apply IHfuel.
  - destruct c2; [|reflexivity]. cbn [bind]. apply IHfuel.
Qed.
Lemma perform_k_opt_rel E c c' tour m m' : V c c' -> R m m' -> orel (prel eq R) (perform_k_opt E c tour m) (perform_k_opt E c' tour m').
Proof.
  intros F X. unfold perform_k_opt. apply orel_foldM; [|split; auto]. intros k [t x] [t' x'] (A & B). cbn [fst snd] in *. subst t'.
  do 2 (apply orel_bind_eq; intros). apply orel_foldM; [|split; auto]. intros cand [u y] [u' y'] (A' & B'). cbn [fst snd] in *. subst u'.
  eapply orel_bind; [apply tour_cost_rel; exact F|]. intros z z' Z. rewrite (Rlt _ _ _ _ Z B'). apply orel_some. destruct (nlt _ _); split; auto.
Qed.
Definition pp_rel (d d' : pp_data) : Prop :=
  d_n d = d_n d' /\ d_edges d = d_edges d' /\ V (d_cost d) (d_cost d') /\ M (d_cm d) (d_cm d') /\ V (d_intr d) (d_intr d') /\
  d_selected d = d_selected d' /\ d_paths d = d_paths d' /\ d_kopt d = d_kopt d'.
Lemma post_rel d d' : pp_rel d d' -> orel (prel eq R) (run_post_processing d) (run_post_processing d').
Proof.
  intros (A1 & A2 & A3 & A4 & A5 & A6 & A7 & A8). unfold run_post_processing.
  assert (Q : remaining_edges d = remaining_edges d').
  { unfold remaining_edges. rewrite <- A2, <- A6, <- A7, (removed_degree_rel _ _ _ _ A5). destruct (removed_degree _ _ _); [|reflexivity]. cbn [bind].
    destruct (d_paths d); [|reflexivity]. rewrite (removed_subtours_rel _ _ _ _ _ A5). reflexivity. }
  rewrite <- Q, <- A1, <- A8. do 2 (apply orel_bind_eq; intros). cbv zeta.
  assert (AM : forall t ms, add_missing_nodes (d_cm d) t ms = add_missing_nodes (d_cm d') t ms)
    by (intros; unfold add_missing_nodes; apply add_missing_rel; auto).
  eapply (orel_bind (prel eq R)).
  { destruct (1 <? _).
    - eapply (orel_bind (lrel (prel eq R))).
      + eapply orel_mapM; [apply lrel_eq|]. intros q _ <-. unfold join_paths. apply orel_bind_eq; intros. rewrite AM, <- A2.
        apply orel_bind_eq; intros. eapply orel_bind; [apply tour_cost_rel; exact A3|]. intros. split; auto.
      + intros c c' C. rewrite (np_argmin_rel (map snd c) (map snd c')) by (eapply lrel_map; [exact C|]; intros [] [] (? & ?); auto).
        apply orel_bind_eq; intros. apply lrel_get; auto.
    - apply orel_bind_eq; intros. rewrite AM, <- A2. apply orel_bind_eq; intros.
      eapply orel_bind; [apply tour_cost_rel; exact A3|]. intros. split; auto. }
  intros [t c] [t' c'] (B & C). cbn [fst snd] in *. subst t'. rewrite <- A2.
  eapply (orel_bind (prel eq R)); [destruct (d_kopt d); [apply perform_k_opt_rel; auto|split; auto]|].
  intros [u x] [u' x'] (B & D). cbn [fst snd] in *. subst u'. apply orel_bind_eq; intros. split; auto.
Qed.
Definition ans_rel (a b : py_tsp_answer) : Prop := y_tour a = y_tour b /\ R (y_cost a) (y_cost b) /\ y_pp a = y_pp b.
Lemma py_finish_rel pp kopt n cm cm' c c' r r' : M cm cm' -> V c c' -> res_rel r r' ->
  orel ans_rel (py_finish pp kopt n cm c r) (py_finish pp kopt n cm' c' r').
Proof.
  intros A B (C1 & C2 & C3 & C4 & C5 & C6 & C7 & C8). unfold py_finish. cbv zeta. rewrite <- C8. apply orel_bind_eq; intros sel _.
  destruct (read_tour _); [repeat split; auto|]. destruct pp; [|repeat split; auto].
  eapply (orel_bind (prel eq R)).
  - apply post_rel. unfold pp_rel. cbn. rewrite (py_edges_rel cm cm' A). repeat split; auto. unfold py_intrinsic. eapply lrel_zip; eauto.
  - intros [t x] [t' x'] (D & E). cbn [fst snd] in *. subst t'. repeat split; auto.
Qed.

(** ** KC-MWM *)

Lemma fwd_stage_rel cap t w m m' i i' b b' : R m m' -> V i i' -> M b b' -> orel M (fwd_stage cap t w m i b) (fwd_stage cap t w m' i' b').
Proof. intros. unfold fwd_stage. steps. Qed.
Lemma bwd_stage_rel cap t w m m' i i' b b' : R m m' -> V i i' -> M b b' -> orel M (bwd_stage cap t w m i b) (bwd_stage cap t w m' i' b').
Proof. intros. unfold bwd_stage. steps. Qed.
Lemma fill_rel lo hi (f : nat -> nat) b b' i i' : M b b' -> V i i' ->
  orel M (for_up lo hi b (fun t j => set t (f j) i)) (for_up lo hi b' (fun t j => set t (f j) i')).
Proof. intros. steps. Qed.
Lemma filld_rel lo hi (f : nat -> nat) b b' i i' : M b b' -> V i i' ->
  orel M (for_down lo hi b (fun t j => set t (f j) i)) (for_down lo hi b' (fun t j => set t (f j) i')).
Proof. intros. steps. Qed.
Lemma forward_rel T cap nz size ws ms ms' b b' : V ms ms' -> M b b' -> orel M (forward T cap nz size ws ms b) (forward T cap nz size ws ms' b').
Proof.
  intros A B. unfold forward. cbv zeta. assert (I : V (n0 :: repeat PInf cap) (n0 :: repeat PInf cap)) by steps.
  eapply (orel_bind M); [steps|]. intros. apply orel_bind_eq; intros.
  eapply (orel_bind M); [destruct (_ =? 0); [steps|apply fill_rel; auto]|]. intros.
  eapply (orel_bind (prel M V)); [|intros [? ?] [? ?] (X & _); exact X].
  apply orel_for_up; [split; auto|]. intros l [t i] [t' i'] (X & Y). cbn [fst snd] in *.
  do 2 (apply orel_bind_eq; intros). eapply orel_bind; [apply lrel_get; exact A|]. intros.
  eapply orel_bind; [apply fwd_stage_rel; eauto|]. intros. eapply orel_bind; [apply lrel_get; eauto|]. intros.
  eapply (orel_bind M); [|intros; split; auto].
  destruct (_ =? T); [steps|]. apply orel_bind_eq; intros found _. destruct found; [steps|]. apply orel_bind_eq; intros.
  destruct (_ && _); [apply fill_rel; auto|]. destruct (_ <? _); [|steps]. do 2 (apply orel_bind_eq; intros). apply fill_rel; auto.
Qed.
Lemma backward_rel T cap nz size ws ms ms' b b' : V ms ms' -> M b b' -> orel M (backward T cap nz size ws ms b) (backward T cap nz size ws ms' b').
Proof.
  intros A B. unfold backward. cbv zeta. assert (I : V (repeat n0 (cap + 1)) (repeat n0 (cap + 1))) by steps.
  eapply (orel_bind M); [steps|]. intros. apply orel_bind_eq; intros.
  eapply (orel_bind M); [destruct (_ =? T); [steps|apply orel_bind_eq; intros; apply (filld_rel _ _ (fun j => j)); auto]|]. intros.
  eapply (orel_bind (prel M V)); [|intros [? ?] [? ?] (X & _); exact X].
  apply orel_for_down; [split; auto|]. intros l [t i] [t' i'] (X & Y). cbn [fst snd] in *.
  do 2 (apply orel_bind_eq; intros). eapply orel_bind; [apply lrel_get; exact A|]. intros.
  eapply orel_bind; [apply bwd_stage_rel; eauto|]. intros. eapply orel_bind; [apply lrel_get; eauto|]. intros.
  eapply (orel_bind M); [|intros; split; auto].
  destruct (_ =? T); [steps|]. destruct a2; [steps|]. apply orel_bind_eq; intros found _. destruct found; [steps|]. apply orel_bind_eq; intros.
  destruct (_ <=? _); [apply (filld_rel _ _ (fun j => j)); auto|]. do 2 (apply orel_bind_eq; intros). apply (filld_rel _ _ (fun j => j)); auto.
Qed.
Lemma path_metrics_rel cap t w m m' f f' b b' : R m m' -> M f f' -> M b b' ->
  orel (prel V V) (path_metrics cap t w m f b) (path_metrics cap t w m' f' b').
Proof.
  intros A B C. unfold path_metrics. destruct (t =? 0); [steps|]. apply orel_for_up; [steps|]. intros i [s d] [s' d'] (X & Y). cbn [fst snd] in *.
  eapply (orel_bind V); [destruct (_ <=? _); steps|]. intros. steps.
Qed.
Lemma min_element_rel l l' : V l l' -> orel R (min_element l) (min_element l').
Proof. intros []; cbn [min_element]; [exact I|]. apply orel_some. eapply lrel_fold_left; eauto. intros. apply Rmin; auto. Qed.
Lemma extrinsic_row_rel cap ws ms ms' f f' b b' o o' : V ms ms' -> M f f' -> M b b' -> V o o' ->
  orel V (extrinsic_row cap ws ms f b o) (extrinsic_row cap ws ms' f' b' o').
Proof.
  intros. unfold extrinsic_row. apply orel_for_up; [auto|]. intros. apply orel_bind_eq; intros. destruct (_ =? 0); [steps|].
  eapply orel_bind; [apply lrel_get; eauto|]. intros.
  eapply (orel_bind (prel V V)); [apply path_metrics_rel; auto|]. intros [x y] [x' y'] (X & Y). cbn [fst snd] in *.
  eapply orel_bind; [apply min_element_rel; exact X|]. intros. eapply orel_bind; [apply min_element_rel; exact Y|]. intros. steps.
Qed.
Lemma department_update_rel T cap nz size ws ms ms' o o' : V ms ms' -> V o o' ->
  orel V (department_update T cap nz size ws ms o) (department_update T cap nz size ws ms' o').
Proof.
  intros. unfold department_update. cbv zeta.
  assert (B : M (repeat (repeat n0 (cap + 1)) (T + 1)) (repeat (repeat n0 (cap + 1)) (T + 1))) by apply M_zeros.
  eapply orel_bind; [apply forward_rel; eauto|]. intros. eapply orel_bind; [apply backward_rel; eauto|]. intros.
  apply extrinsic_row_rel; auto.
Qed.
Lemma ic_forward_rel n s s' b b' : (forall i x y, R x y -> orel R (s i x) (s' i y)) -> M b b' -> orel M (ic_forward n s b) (ic_forward n s' b').
Proof.
  intros S B. unfold ic_forward. eapply (orel_bind M); [unfold init_forward; steps|]. intros. apply orel_for_up; [auto|]. intros.
  eapply orel_bind; [apply mrel_get2; eauto|]. intros. eapply orel_bind; [apply mrel_set2; eauto|]. intros.
  eapply orel_bind; [apply mrel_get2; eauto|]. intros. eapply orel_bind; [apply mrel_get2; eauto|]. intros.
  eapply orel_bind; [apply S; eauto|]. intros. steps.
Qed.
Lemma ic_backward_rel n s s' b b' : (forall i x y, R x y -> orel R (s i x) (s' i y)) -> M b b' -> orel M (ic_backward n s b) (ic_backward n s' b').
Proof.
  intros S B. unfold ic_backward. eapply (orel_bind M); [unfold init_backward; steps|]. intros. apply orel_for_down; [auto|]. intros.
  eapply orel_bind; [apply mrel_get2; eauto|]. intros. eapply orel_bind; [apply mrel_get2; eauto|]. intros.
  eapply orel_bind; [apply S; eauto|]. intros. steps.
Qed.
Lemma pair_tables n : M (repeat [n0; n0] n) (repeat [n0; n0] n).
Proof. apply lrel_repeat. repeat constructor; auto. Qed.
Lemma project_update_rel T m m' o o' : M m m' -> M o o' -> orel M (project_update T m o) (project_update T m' o').
Proof.
  intros F O. unfold project_update. rewrite <- (lrel_len _ _ _ O).
  eapply (orel_bind (prel (prel M M) M)); [|intros [[? ?] ?] [[? ?] ?] (_ & X); exact X].
  apply orel_for_up; [repeat split; cbn; auto using pair_tables|]. intros p [[f b] u] [[f' b'] u'] ((A & B) & C). cbn [fst snd] in *.
  unfold project_one. cbv zeta.
  assert (S : forall i x y, R x y -> orel R (k <- get2 m p i;; Some (nadd x k)) (k <- get2 m' p i;; Some (nadd y k))) by (intros; steps).
  eapply orel_bind; [apply ic_forward_rel; eauto|]. intros. eapply orel_bind; [apply ic_backward_rel; eauto|]. intros.
  eapply (orel_bind M); [steps|]. intros. steps.
Qed.
Lemma oric_to_project_rel P T e e' t t' o o' q q' w w' : M e e' -> V t t' -> M o o' -> M q q' -> M w w' ->
  orel (prel M M) (oric_to_project_update P T e t o q w) (oric_to_project_update P T e' t' o' q' w').
Proof.
  intros E X O Q W. unfold oric_to_project_update.
  eapply (orel_bind (prel (prel (prel M M) M) M)); [|intros [[[? ?] ?] ?] [[[? ?] ?] ?] ((_ & A) & B); split; auto].
  apply orel_for_up; [repeat split; cbn; auto using pair_tables|].
  intros k [[[f b] u] v] [[[f' b'] u'] v'] (((A & B) & C) & D). cbn [fst snd] in *. unfold oric_one. cbv zeta.
  assert (S : forall i x y, R x y -> orel R (a <- get2 e i k;; m <- get t k;; Some (nadd (nadd x a) m))
                                       (a <- get2 e' i k;; m <- get t' k;; Some (nadd (nadd y a) m))) by (intros; steps).
  eapply orel_bind; [apply ic_forward_rel; eauto|]. intros. eapply orel_bind; [apply ic_backward_rel; eauto|]. intros.
  eapply (orel_bind (prel M M)); [|intros [? ?] [? ?] (? & ?); cbn [fst snd] in *; steps].
  apply orel_for_up; [split; auto|]. intros p [x y] [x' y'] (X1 & X2). cbn [fst snd] in *. steps.
Qed.
Lemma team_to_oric_rel T x x' o o' w w' : M x x' -> V o o' -> V w w' -> orel V (team_to_oric_update T x o w) (team_to_oric_update T x' o' w').
Proof.
  intros A B C. unfold team_to_oric_update. rewrite <- (lrel_len _ _ _ A). eapply (orel_bind V).
  - apply orel_for_up; [apply V_zero|]. intros. eapply orel_bind; [apply lrel_get; eauto|]. intros. apply plus_into_rel; auto.
  - intros. apply plus_into_rel; auto.
Qed.
Lemma project_to_oric_rel p p' e e' w w' : M p p' -> M e e' -> M w w' -> orel M (project_to_oric_update p e w) (project_to_oric_update p' e' w').
Proof.
  intros A B C. unfold project_to_oric_update. rewrite <- (lrel_len _ _ _ A). apply orel_for_up; [auto|]. intros.
  eapply orel_bind; [apply lrel_get; exact A|]. intros. eapply orel_bind; [apply lrel_get; exact C|]. intros.
  eapply orel_bind; [apply lrel_get; eauto|]. intros. eapply orel_bind; [apply plus_into_rel; eauto|]. intros. steps.
Qed.
Lemma intrinsic_out_mwm_rel T a a' b b' w w' o o' : M a a' -> M b b' -> M w w' -> V o o' ->
  orel V (intrinsic_out_mwm T a b w o) (intrinsic_out_mwm T a' b' w' o').
Proof.
  intros A B C D. unfold intrinsic_out_mwm. rewrite <- (lrel_len _ _ _ C). apply orel_for_up; [auto|]. intros.
  eapply orel_bind; [apply lrel_get; exact C|]. intros r r' Hr. rewrite <- (lrel_len _ _ _ Hr). steps.
Qed.
Lemma team_to_knapsack_rel D T nzs t t' w w' x x' o o' : M t t' -> V w w' -> M x x' -> V o o' ->
  orel M (team_to_knapsack D T nzs t w x o) (team_to_knapsack D T nzs t' w' x' o').
Proof.
  intros A B C E. unfold team_to_knapsack. rewrite <- (lrel_len _ _ _ C). apply orel_for_up; [auto|]. intros d s s' S.
  do 2 (apply orel_bind_eq; intros).
  eapply (orel_bind (prel M eq)).
  - apply orel_foldM; [|split; auto]. intros u [k un] [k' un'] (X & Y). cbn [fst snd] in *. subst un'. unfold share_department.
    do 4 (apply orel_bind_eq; intros). apply orel_foldM; [|split; auto]. intros l [y yn] [y' yn'] (X' & Y'). cbn [fst snd] in *. subst yn'.
    eapply orel_bind; [apply lrel_get; exact B|]. intros. eapply orel_bind; [apply mrel_get2; exact C|]. intros.
    eapply orel_bind; [apply lrel_get; exact E|]. intros. eapply (orel_bind M); [steps|]. intros. apply orel_bind_eq; intros. split; auto.
  - intros [k un] [k' un'] (X & Y). cbn [fst snd] in *. subst un'. steps.
Qed.
Lemma extrinsic_output_team_rel x x' o o' b b' : M x x' -> V o o' -> V b b' ->
  orel V (extrinsic_output_team x o b) (extrinsic_output_team x' o' b').
Proof.
  intros A B C. unfold extrinsic_output_team. eapply orel_bind; [apply orel_copy; eauto|]. intros.
  eapply orel_foldM2; [exact A| |auto]. intros. eapply orel_transform2; eauto.
Qed.

(** The running minimum of the coupling constraint starts at the constant [oric_cap]; as long as it
    ends below the constant this cannot be told from a start at infinity. *)
Hypothesis Rcap : forall a b, R a b -> nlt a oric_cap = true -> nlt b oric_cap = true.
Definition run_min (m : num) (l : list num) : num := fold_left (fun m e => if nlt e m then e else m) l m.
Lemma nlt_trans_le a b c : is_nan c = false -> nlt a b = true -> nlt c b = false -> nlt a c = true.
Proof.
  destruct a, b, c; cbn; try discriminate; auto. intros _ A B. apply qltb_true in A. apply qltb_false in B. apply qltb_true.
  eapply Qclt_le_trans; eauto.
Qed.
Lemma run_min_cap l : nlt (run_min oric_cap l) oric_cap = true -> run_min oric_cap l = run_min PInf l.
Proof.
  assert (G : forall l m, is_nan m = false -> nlt m oric_cap = false -> nlt (run_min oric_cap l) oric_cap = true -> run_min oric_cap l = run_min m l).
  { clear l. unfold run_min. induction l as [|e l IH]; intros m Nm Hm H; cbn [fold_left] in *.
    - rewrite nlt_irrefl in H. discriminate.
    - destruct (nlt e oric_cap) eqn:E.
      + assert (X : nlt e m = true) by (apply (nlt_trans_le e oric_cap m); auto). rewrite X. reflexivity.
      + apply IH; auto.
        * destruct (nlt e m) eqn:X; auto. destruct e, m; cbn in *; auto.
        * destruct (nlt e m); auto. }
  intros H. apply G; auto.
Qed.
Lemma run_min_inf l : nlt (run_min PInf l) oric_cap = true -> run_min oric_cap l = run_min PInf l.
Proof.
  assert (G : forall l m, is_nan m = false -> nlt m oric_cap = false -> nlt (run_min m l) oric_cap = true -> run_min oric_cap l = run_min m l).
  { clear l. unfold run_min. induction l as [|e l IH]; intros m Nm Hm H; cbn [fold_left] in *.
    - rewrite Hm in H. discriminate.
    - destruct (nlt e oric_cap) eqn:E.
      + assert (X : nlt e m = true) by (apply (nlt_trans_le e oric_cap m); auto). rewrite X. reflexivity.
      + apply IH; auto.
        * destruct (nlt e m) eqn:X; auto. destruct e, m; cbn in *; auto.
        * destruct (nlt e m); auto. }
  intros H. apply G; auto.
Qed.

Lemma column_run eq2oric t : forall n m v, for_up 0 n m (fun mv p => e <- get2 eq2oric p t ;; Some (if nlt e mv then e else mv)) = Some v <->
  exists l, mapM (fun p => get2 eq2oric p t) (seq 0 n) = Some l /\ v = run_min m l.
Proof.
  intros n. unfold for_up. rewrite Nat.sub_0_r. generalize (seq 0 n) as ps. clear n.
  induction ps as [|p ps IH]; intros m v; cbn [foldM mapM].
  - split; [intros [= <-]; exists []; auto|intros (l & [= <-] & ->); reflexivity].
  - destruct (get2 eq2oric p t) as [e|]; cbn [bind]; [|split; [discriminate|intros (l & [=] & _)]].
    rewrite IH. split.
    + intros (l & E & ->). rewrite E. exists (e :: l). auto.
    + intros (l & E & ->). destruct (mapM _ ps) as [l'|]; [|discriminate]. injection E as <-. exists l'. auto.
Qed.
Lemma oric_to_team_rel e e' o o' r : M e e' -> V o o' -> oric_to_team_update e o = Some r ->
  Forall (fun x => nlt x oric_cap = true) r -> exists r', oric_to_team_update e' o' = Some r' /\ V r r'.
Proof.
  intros A B H C. unfold oric_to_team_update in *. rewrite <- (lrel_len _ _ _ B), <- (lrel_len _ _ _ A).
  (* what every iteration writes *)
  assert (G : forall n s r, for_up 0 n s (fun o t => v <- for_up 0 (length e) oric_cap (fun mv p => x <- get2 e p t ;; Some (if nlt x mv then x else mv)) ;; set o t v) = Some r ->
    (forall t, t < n -> exists v, for_up 0 (length e) oric_cap (fun mv p => x <- get2 e p t ;; Some (if nlt x mv then x else mv)) = Some v /\ get r t = Some v) /\
    length r = length s).
  { clear. induction n as [|n IH]; intros s r H.
    - injection H as <-. split; [lia|reflexivity].
    - rewrite for_up_S in H. destruct (for_up 0 n s _) as [r0|] eqn:E; [|discriminate]. cbn [bind] in H.
      destruct (for_up 0 (length e) _ _) as [v|] eqn:Ev in H; [|discriminate]. cbn [bind] in H.
      destruct (IH s r0 E) as (I1 & I2). unfold set in H. destruct (n <? length r0) eqn:L; [|discriminate]. injection H as <-.
      apply Nat.ltb_lt in L. split; [|rewrite upd_length; exact I2]. intros t Ht. destruct (Nat.eq_dec t n) as [->|N].
      + exists v. split; [exact Ev|]. apply get_upd_eq; auto.
      + destruct (I1 t ltac:(lia)) as (w & W1 & W2). exists w. split; [exact W1|]. rewrite get_upd_ne; auto. }
  destruct (G _ _ _ H) as (G1 & G2).
  assert (K : forall t, t < length o -> orel R (for_up 0 (length e) oric_cap (fun mv p => x <- get2 e p t ;; Some (if nlt x mv then x else mv)))
                                          (for_up 0 (length e) oric_cap (fun mv p => x <- get2 e' p t ;; Some (if nlt x mv then x else mv)))).
  { intros t Ht. destruct (G1 t Ht) as (v & V1 & V2).
    assert (Cv : nlt v oric_cap = true) by (rewrite Forall_forall in C; apply C; unfold get in V2; eapply nth_error_In; eauto).
    rewrite V1. destruct (proj1 (column_run e t _ _ _) V1) as (l & L1 & L2). subst v.
    assert (Q : orel V (mapM (fun p => get2 e p t) (seq 0 (length e))) (mapM (fun p => get2 e' p t) (seq 0 (length e))))
      by (eapply orel_mapM; [apply lrel_eq|]; intros p _ <-; apply mrel_get2; auto).
    rewrite L1 in Q. destruct (mapM (fun p => get2 e' p t) _) as [l'|] eqn:L'; [|contradiction].
    assert (Z : R (run_min PInf l) (run_min PInf l')).
    { unfold run_min. apply (lrel_fold_left R R); [exact Q|exact Rinf|]. intros a a' s s' X Y. rewrite (Rlt _ _ _ _ X Y). destruct (nlt a' s'); auto. }
    pose proof (run_min_cap l Cv) as Ec. rewrite Ec in Cv |- *. pose proof (Rcap _ _ Z Cv) as Cv'.
    rewrite (proj2 (column_run e' t (length e) oric_cap (run_min oric_cap l')) (ex_intro _ l' (conj L' eq_refl))). cbn [orel].
    rewrite (run_min_inf l' Cv'). exact Z. }
  assert (O : orel V (for_up 0 (length o) o (fun o t => v <- for_up 0 (length e) oric_cap (fun mv p => x <- get2 e p t ;; Some (if nlt x mv then x else mv)) ;; set o t v))
                     (for_up 0 (length o) o' (fun o t => v <- for_up 0 (length e) oric_cap (fun mv p => x <- get2 e' p t ;; Some (if nlt x mv then x else mv)) ;; set o t v))).
  { unfold for_up at 1 3. rewrite Nat.sub_0_r.
    assert (In : forall t, In t (seq 0 (length o)) -> t < length o) by (intros t Ht; apply in_seq in Ht; lia).
    revert In. generalize (seq 0 (length o)) as ts. clear - B K. intros ts In. revert o o' B K In. intros o o' B.
    generalize (length o) as N. intros N K. revert o o' B. induction ts as [|t ts IH]; intros o o' B In; cbn [foldM]; [exact B|].
    eapply (orel_bind V); [eapply (orel_bind R); [apply K, In; left; reflexivity|]; intros; apply lrel_set; auto|].
    intros. apply IH; auto. intros; apply In; right; auto. }
  rewrite H in O. destruct (for_up 0 (length o) o' _) as [r'|]; [|contradiction]. exists r'. auto.
Qed.

Definition kin_rel (a b : kc_inputs) : Prop :=
  V (kc_reward_team a) (kc_reward_team b) /\ M (kc_team2knapsack a) (kc_team2knapsack b) /\ kc_weights a = kc_weights b /\
  M (kc_reward_project a) (kc_reward_project b) /\ kc_max_state a = kc_max_state b /\ kc_nonzero a = kc_nonzero b.
Definition kst_rel (a b : kc_state) : Prop :=
  M (kc_t2k a) (kc_t2k b) /\ M (kc_dummy a) (kc_dummy b) /\ M (kc_extr_old a) (kc_extr_old b) /\ M (kc_extr a) (kc_extr b) /\
  V (kc_team2oric a) (kc_team2oric b) /\ V (kc_oric2team a) (kc_oric2team b) /\ M (kc_eq2oric a) (kc_eq2oric b) /\
  M (kc_oric2eq a) (kc_oric2eq b) /\ M (kc_eq2project a) (kc_eq2project b) /\ M (kc_project2eq a) (kc_project2eq b) /\
  V (kc_intrinsic a) (kc_intrinsic b).
Lemma kc_department_rel flag al T i i' sz t t' it st st' d : kin_rel i i' -> M t t' -> prel (prel M M) M st st' ->
  orel (prel (prel M M) M) (kc_department flag al T i sz t it st d) (kc_department flag al T i' sz t' it st' d).
Proof.
  intros (I1 & I2 & I3 & I4 & I5 & I6) A. destruct st as [[x y] z], st' as [[x' y'] z']. intros ((B & C) & D). cbn [fst snd] in *.
  unfold kc_department. rewrite <- I3, <- I5, <- I6. do 4 (apply orel_bind_eq; intros).
  eapply orel_bind; [apply lrel_get; exact A|]. intros. eapply orel_bind; [apply lrel_get; exact B|]. intros.
  eapply orel_bind; [apply department_update_rel; eauto|]. intros. eapply orel_bind; [apply lrel_set; eauto|]. intros.
  eapply orel_bind; [apply filter_at_rel; eauto|]. intros [? ?] [? ?] (? & ?). cbn [fst snd] in *. repeat split; auto.
Qed.
(** the left run stays below the constant *)
Lemma kc_step_rel flag al T D P i i' sz st st' it s : kin_rel i i' -> kst_rel st st' -> kc_step flag al T D P i sz st it = Some s ->
  Forall (fun x => nlt x oric_cap = true) (kc_oric2team s) -> exists s', kc_step flag al T D P i' sz st' it = Some s' /\ kst_rel s s'.
Proof.
  intros I (A1 & A2 & A3 & A4 & A5 & A6 & A7 & A8 & A9 & A10 & A11) H C. pose proof I as (I1 & I2 & I3 & I4 & I5 & I6). unfold kc_step in *.
  pose proof (orel_for_up (prel (prel M M) M) 0 D (kc_department flag al T i sz (kc_t2k st) it) (kc_department flag al T i' sz (kc_t2k st') it)
    (kc_dummy st, kc_extr_old st, kc_extr st) (kc_dummy st', kc_extr_old st', kc_extr st')
    (conj (conj A2 A3) A4) (fun d x y Q => kc_department_rel flag al T i i' sz _ _ it x y d I A1 Q)) as Q.
  destruct (for_up 0 D _ (kc_department flag al T i sz (kc_t2k st) it)) as [[[dm old] ex]|]; [|discriminate].
  destruct (for_up 0 D _ (kc_department flag al T i' sz (kc_t2k st') it)) as [[[dm' old'] ex']|]; [|contradiction].
  destruct Q as ((Q1 & Q2) & Q3). cbn [fst snd bind] in *.
  pose proof (team_to_oric_rel T ex ex' _ _ _ _ Q3 A5 I1) as E1.
  destruct (team_to_oric_update T ex _ _) as [t2o|]; [|discriminate]. destruct (team_to_oric_update T ex' _ _) as [t2o'|]; [|contradiction]. cbn [bind orel] in *.
  pose proof (oric_to_project_rel P T _ _ _ _ _ _ _ _ _ _ A7 E1 A8 A9 I4) as E2.
  destruct (oric_to_project_update P T (kc_eq2oric st) t2o _ _ _) as [[oe ep]|]; [|discriminate].
  destruct (oric_to_project_update P T (kc_eq2oric st') t2o' _ _ _) as [[oe' ep']|]; [|contradiction]. destruct E2 as (E2 & E2'). cbn [fst snd bind] in *.
  pose proof (project_update_rel T _ _ _ _ E2' A10) as E3.
  destruct (project_update T ep _) as [pe|]; [|discriminate]. destruct (project_update T ep' _) as [pe'|]; [|contradiction]. cbn [bind orel] in *.
  pose proof (project_to_oric_rel _ _ _ _ _ _ E3 A7 I4) as E4.
  destruct (project_to_oric_update pe _ _) as [eo|]; [|discriminate]. destruct (project_to_oric_update pe' _ _) as [eo'|]; [|contradiction]. cbn [bind orel] in *.
  destruct (oric_to_team_update eo _) as [ot|] eqn:Eot; [|discriminate]. cbn [bind] in H.
  destruct (intrinsic_out_mwm T oe pe _ _) as [io|] eqn:Eio; [|discriminate]. cbn [bind] in H.
  destruct (team_to_knapsack D T _ _ _ ex ot) as [tk|] eqn:Etk; [|discriminate]. cbn [bind] in H. injection H as <-. cbn in C.
  destruct (oric_to_team_rel _ _ _ _ _ E4 A6 Eot C) as (ot' & Eot' & E5). rewrite Eot'. cbn [bind].
  pose proof (intrinsic_out_mwm_rel T _ _ _ _ _ _ _ _ E2 E3 I4 A11) as E6. rewrite Eio in E6.
  destruct (intrinsic_out_mwm T oe' pe' _ _) as [io'|]; [|contradiction]. cbn [bind orel] in *.
  pose proof (team_to_knapsack_rel D T (kc_nonzero i) _ _ _ _ _ _ _ _ A1 I1 Q3 E5) as E7. rewrite Etk in E7. rewrite <- I6.
  destruct (team_to_knapsack D T _ _ _ ex' ot') as [tk'|]; [|contradiction]. cbn [bind orel] in *.
  eexists; split; [reflexivity|]. unfold kst_rel. cbn. repeat (split; [assumption|]). assumption.
Qed.
Lemma kc_inputs_rel T D P mx rt rt' tr tr' w sz nz rp rp' ms : V rt rt' -> V tr tr' -> V rp rp' ->
  orel kin_rel (kc_process_inputs T D P mx rt tr w sz nz rp ms) (kc_process_inputs T D P mx rt' tr' w sz nz rp' ms).
Proof.
  intros. unfold kc_process_inputs. eapply orel_bind; [apply orel_slice; eauto|]. intros. do 2 (apply orel_bind_eq; intros).
  eapply orel_bind; [apply orel_rows; eauto|]. intros. apply orel_bind_eq; intros. eapply orel_bind; [apply orel_rows; eauto|]. intros.
  apply orel_some. unfold kin_rel. cbn. auto 7.
Qed.
Lemma kc_run_rel flag al T D P i i' sz iters : kin_rel i i' ->
  (forall t st, t <= iters -> for_up 0 t (kc_init T D P (kc_team2knapsack i)) (kc_step flag al T D P i sz) = Some st ->
     Forall (fun x => nlt x oric_cap = true) (kc_oric2team st)) ->
  forall st, for_up 0 iters (kc_init T D P (kc_team2knapsack i)) (kc_step flag al T D P i sz) = Some st ->
  exists st', for_up 0 iters (kc_init T D P (kc_team2knapsack i')) (kc_step flag al T D P i' sz) = Some st' /\ kst_rel st st'.
Proof.
  intros I. induction iters as [|n IH]; intros C st H.
  - injection H as <-. eexists. split; [reflexivity|]. destruct I as (I1 & I2 & _). unfold kst_rel, kc_init. cbn.
    repeat split; auto using M_zeros, V_zero.
  - pose proof (C (S n) st (Nat.le_refl _) H) as Cs. rewrite for_up_S in *.
    destruct (for_up 0 n _ (kc_step flag al T D P i sz)) as [s|] eqn:E; [|discriminate]. cbn [bind] in H.
    destruct (IH (fun t st L Q => C t st (Nat.le_trans _ _ _ L (Nat.le_succ_diag_r n)) Q) s eq_refl) as (s' & S1 & S2). rewrite S1. cbn [bind].
    eapply kc_step_rel; eauto.
Qed.

End Relation.
