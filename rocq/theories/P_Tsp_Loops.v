(** * Proofs about loop detection *)
From Coq Require Import Permutation.
From Verif Require Import Arr ArrFacts SpecGraph M_Tsp_Loops.
Local Open Scope nat_scope.

(** ** The graph *)

Definition succs (E : list (nat * nat)) (u : nat) : list nat :=
  map snd (filter (fun e => fst e =? u) E).
Lemma in_succs : forall E u v, In v (succs E u) <-> In (u, v) E.
Proof.
  intros E u v; unfold succs; rewrite in_map_iff; split.
  - intros ((a & b) & <- & H); apply filter_In in H as (H & Q); cbn in *.
    apply Nat.eqb_eq in Q; subst; exact H.
  - intros H; exists (u, v); split; [reflexivity|]; apply filter_In; split; [exact H|].
    apply Nat.eqb_refl.
Qed.
Definition opt (l : list nat) : option (list nat) := match l with [] => None | _ => Some l end.

Lemma lookup_append : forall g u v w, lookup g u <> None ->
  lookup (append_to g u v) w
  = if u =? w then match lookup g u with Some l => Some (l ++ [v]) | None => None end
    else lookup g w.
Proof.
  induction g as [|(k & l) g IH]; intros u v w H; cbn in *; [congruence|].
  destruct (Nat.eqb_spec k u) as [->|N]; cbn.
  - destruct (Nat.eqb_spec u w) as [->|N']; reflexivity.
  - destruct (Nat.eqb_spec k w) as [->|N'].
    + destruct (Nat.eqb_spec u w) as [->|N'']; [congruence|reflexivity].
    + apply IH, H.
Qed.
Lemma lookup_snoc : forall g u l w, lookup g u = None ->
  lookup (g ++ [(u, l)]) w = if u =? w then Some l else lookup g w.
Proof.
  induction g as [|(k & l0) g IH]; intros u l w H; cbn in *; [reflexivity|].
  destruct (Nat.eqb_spec k u) as [->|N]; [discriminate|].
  destruct (Nat.eqb_spec k w) as [->|N'].
  - destruct (Nat.eqb_spec u w) as [->|N'']; [congruence|reflexivity].
  - apply IH, H.
Qed.
Lemma succs_snoc : forall E u v w,
  succs (E ++ [(u, v)]) w = if u =? w then succs E w ++ [v] else succs E w.
Proof.
  intros E u v w; unfold succs; rewrite filter_app, map_app; cbn.
  destruct (u =? w); cbn; [reflexivity|apply app_nil_r].
Qed.
Lemma lookup_build : forall E u, lookup (build_graph E) u = opt (succs E u).
Proof.
  intros E; induction E as [|(a & b) E IH] using rev_ind; intros u; [reflexivity|].
  unfold build_graph in *; rewrite fold_left_app; cbn [fold_left].
  rewrite succs_snoc; unfold add_edge; cbn [fst snd].
  rewrite IH; destruct (succs E a) as [|s0 sr] eqn:Es; cbn [opt].
  - rewrite lookup_snoc by (rewrite IH, Es; reflexivity).
    destruct (Nat.eqb_spec a u) as [->|N]; [rewrite Es; reflexivity|apply IH].
  - rewrite lookup_append by (rewrite IH, Es; discriminate).
    destruct (Nat.eqb_spec a u) as [->|N]; [rewrite IH, Es; reflexivity|apply IH].
Qed.
Lemma keys_append : forall g u v, keys (append_to g u v) = keys g.
Proof.
  induction g as [|(k & l) g IH]; intros u v; cbn in *; [reflexivity|].
  destruct (k =? u); cbn; [reflexivity|f_equal; apply IH].
Qed.
Lemma in_keys : forall g u, In u (keys g) <-> lookup g u <> None.
Proof.
  induction g as [|(k & l) g IH]; intros u; cbn; [tauto|].
  destruct (Nat.eqb_spec k u) as [->|N].
  - split; [discriminate|auto].
  - rewrite <- IH; split; [intros [?|?]; [congruence|assumption]|auto].
Qed.
Lemma keys_nodup : forall E, NoDup (keys (build_graph E)).
Proof.
  intros E; induction E as [|(a & b) E IH] using rev_ind; [constructor|].
  unfold build_graph in *; rewrite fold_left_app; cbn [fold_left].
  unfold add_edge; cbn [fst snd].
  destruct (lookup _ a) eqn:L; [rewrite keys_append; exact IH|].
  unfold keys in *; rewrite map_app; cbn.
  apply Permutation_NoDup with (a :: map fst (fold_left add_edge E [])).
  - apply Permutation_cons_append.
  - constructor; [|exact IH]. intros H; apply (in_keys (fold_left add_edge E [])) in H; auto.
Qed.
Lemma in_keys_build : forall E u, In u (keys (build_graph E)) <-> succs E u <> [].
Proof.
  intros E u; rewrite in_keys, lookup_build; destruct (succs E u); cbn; split; intros; (discriminate || congruence).
Qed.

(** ** The depth-first search *)

Fixpoint search (f : nat -> list nat -> list nat -> option (list nat)) (visited path nodes : list nat)
  : option (list nat) :=
  match nodes with
  | [] => Some []
  | node :: nodes =>
      if existsb (Nat.eqb node) visited then search f visited path nodes else
      p <- f node visited path ;;
      match p with [] => search f visited path nodes | _ => Some p end
  end.
Lemma fcl_unfold : forall fuel E start cur visited path,
  find_closed_loop (S fuel) (build_graph E) start cur visited path
  = if cur =? start then Some (path ++ [cur])
    else search (find_closed_loop fuel (build_graph E) start) (cur :: visited) (path ++ [cur])
                (succs E cur).
Proof.
  intros fuel E start cur visited path; cbn [find_closed_loop].
  destruct (cur =? start); [reflexivity|].
  rewrite lookup_build; generalize (succs E cur) as ns; intros ns.
  assert (G : forall nodes,
    (fix search (nodes : list nat) : option (list nat) :=
             match nodes with
             | [] => Some []
             | node :: nodes =>
                 if existsb (Nat.eqb node) (cur :: visited) then search nodes else
                 p <- find_closed_loop fuel (build_graph E) start node (cur :: visited) (path ++ [cur]) ;;
                 match p with [] => search nodes | _ => Some p end
             end) nodes
    = search (find_closed_loop fuel (build_graph E) start) (cur :: visited) (path ++ [cur]) nodes).
  { induction nodes as [|n nodes IH]; cbn [search]; [reflexivity|].
    destruct (existsb _ _); [exact IH|].
    destruct (find_closed_loop fuel (build_graph E) start n (cur :: visited) (path ++ [cur]))
      as [[|a p]|]; cbn [bind]; [exact IH|reflexivity|reflexivity]. }
  destruct ns; [reflexivity|exact (G (n :: ns))].
Qed.
Lemma existsb_in : forall u l, existsb (Nat.eqb u) l = true <-> In u l.
Proof.
  intros u l; rewrite existsb_exists; split.
  - intros (x & H & Q); apply Nat.eqb_eq in Q; subst; exact H.
  - intros H; exists u; split; [exact H|apply Nat.eqb_refl].
Qed.
Lemma existsb_nin : forall u l, existsb (Nat.eqb u) l = false <-> ~ In u l.
Proof. intros u l; rewrite <- existsb_in; destruct (existsb _ l); split; congruence. Qed.

Definition heads (E : list (nat * nat)) : list nat := map snd E.
Definition disjoint (a b : list nat) : Prop := forall x, In x a -> In x b -> False.

(** Enough fuel: the search always ends *)
Lemma fcl_total : forall E start fuel cur visited path,
  length E < fuel + length visited -> NoDup (cur :: visited) -> incl (cur :: visited) (heads E) ->
  find_closed_loop fuel (build_graph E) start cur visited path <> None.
Proof.
  intros E start; induction fuel as [|fuel IH]; intros cur visited path F N I.
  - exfalso; apply NoDup_incl_length in I; [|exact N]. unfold heads in I; rewrite map_length in I.
    cbn in *; lia.
  - rewrite fcl_unfold; destruct (cur =? start); [discriminate|].
    assert (Q : forall x, In x (succs E cur) -> In x (heads E)).
    { intros x H; apply in_succs in H; unfold heads; apply in_map_iff; exists (cur, x); auto. }
    revert Q; generalize (succs E cur) as nodes.
    induction nodes as [|x nodes IHn]; intros Q; cbn [search]; [discriminate|].
    destruct (existsb (Nat.eqb x) (cur :: visited)) eqn:Ex; [apply IHn; intros; apply Q; now right|].
    apply existsb_nin in Ex.
    destruct (find_closed_loop fuel (build_graph E) start x (cur :: visited) (path ++ [cur]))
      as [[|a p]|] eqn:R; cbn [bind].
    + apply IHn; intros; apply Q; now right.
    + discriminate.
    + exfalso; revert R; apply IH; [cbn; lia|constructor; assumption|].
      intros y [->|H]; [apply Q; now left|apply I, H].
Qed.

(** Anything found is a simple path of edges from [cur] to [start] avoiding [visited] *)
Lemma fcl_sound : forall E start fuel cur visited path p,
  find_closed_loop fuel (build_graph E) start cur visited path = Some p -> p <> [] ->
  ~ In cur visited ->
  exists t, p = path ++ cur :: t /\ last (cur :: t) 0 = start /\ NoDup (cur :: t)
            /\ disjoint (cur :: t) visited /\ path_in E (cur :: t).
Proof.
  intros E start; induction fuel as [|fuel IH]; intros cur visited path p H Np Nv; [discriminate|].
  rewrite fcl_unfold in H; destruct (Nat.eqb_spec cur start) as [->|Nc].
  - injection H as <-; exists []; split; [reflexivity|]; split; [reflexivity|].
    split; [constructor; [tauto|constructor]|]; split; [|apply path_in_one].
    intros x [->|[]] Hx; auto.
  - assert (Q : forall x, In x (succs E cur) -> In (cur, x) E) by (intros x; apply in_succs).
    revert H Q; generalize (succs E cur) as nodes.
    induction nodes as [|x nodes IHn]; intros H Q; cbn [search] in H; [congruence|].
    destruct (existsb (Nat.eqb x) (cur :: visited)) eqn:Ex;
      [apply IHn; [exact H|intros; apply Q; now right]|].
    apply existsb_nin in Ex.
    destruct (find_closed_loop fuel (build_graph E) start x (cur :: visited) (path ++ [cur]))
      as [[|a q]|] eqn:R; cbn [bind] in H; [apply IHn; [exact H|intros; apply Q; now right]| |discriminate].
    injection H as <-.
    destruct (IH _ _ _ _ R Np Ex) as (t & Et & L & N & D & P).
    exists (x :: t). split; [rewrite Et, <- app_assoc; reflexivity|].
    split; [exact L|]. split; [|split].
    + constructor; [|exact N]. intros Hc; apply (D cur Hc); now left.
    + intros y [->|Hy] Hv; [exact (Nv Hv)|apply (D y Hy); now right].
    + apply path_in_cons; split; [apply Q; now left|exact P].
Qed.

(** If a simple path of edges to [start] exists, something is found *)
Lemma fcl_complete : forall E start t fuel cur visited path,
  length E < fuel + length visited -> NoDup (cur :: visited) -> incl (cur :: visited) (heads E) ->
  last (cur :: t) 0 = start -> NoDup (cur :: t) -> disjoint (cur :: t) visited ->
  path_in E (cur :: t) ->
  find_closed_loop fuel (build_graph E) start cur visited path <> Some [].
Proof.
  intros E start; induction t as [|y t IHt]; intros fuel cur visited path F N I L Nt D P.
  all: destruct fuel as [|fuel];
    [exfalso; apply NoDup_incl_length in I; [|exact N]; unfold heads in I; rewrite map_length in I;
     cbn in *; lia|].
  - cbn in L; subst; rewrite fcl_unfold, Nat.eqb_refl; destruct path; discriminate.
  - rewrite fcl_unfold; destruct (cur =? start); [destruct path; discriminate|].
    apply path_in_cons in P as (Ey & P).
    assert (Q : forall x, In x (succs E cur) -> In x (heads E)).
    { intros x H; apply in_succs in H; unfold heads; apply in_map_iff; exists (cur, x); auto. }
    apply in_succs in Ey. revert Ey Q; generalize (succs E cur) as nodes.
    assert (Ny : ~ In y (cur :: visited)).
    { intros [->|Hv]; [inversion Nt; subst; apply H1; now left|].
      apply (D y); [right; now left|exact Hv]. }
    induction nodes as [|x nodes IHn]; intros Ey Q; [destruct Ey|]; cbn [search].
    destruct (existsb (Nat.eqb x) (cur :: visited)) eqn:Ex.
    { apply existsb_in in Ex. apply IHn; [|intros; apply Q; now right].
      destruct Ey as [->|Ey]; [exfalso; auto|exact Ey]. }
    apply existsb_nin in Ex.
    destruct (find_closed_loop fuel (build_graph E) start x (cur :: visited) (path ++ [cur]))
      as [[|a q]|] eqn:R; cbn [bind]; [|discriminate|discriminate].
    apply IHn; [|intros; apply Q; now right].
    destruct Ey as [->|Ey]; [exfalso|exact Ey]. revert R.
    apply IHt; auto.
    + cbn; lia.
    + constructor; assumption.
    + intros z [->|Hz]; [apply Q; now left|apply I, Hz].
    + inversion Nt; assumption.
    + intros z Hz [->|Hv]; [inversion Nt; auto|]. apply (D z); [now right|exact Hv].
Qed.

(** A node whose first useful successor is [start] closes the loop *)
Lemma fcl_closes : forall E start s pre post, succs E s = pre ++ start :: post ->
  (forall x t, In x pre -> path_in E (x :: t) -> last (x :: t) 0 = start -> False) ->
  forall fuel cur visited path p,
  find_closed_loop fuel (build_graph E) start cur visited path = Some p -> p <> [] ->
  ~ In cur visited -> ~ In start visited ->
  forall t, p = path ++ cur :: t -> In s (cur :: t) -> s <> start ->
  exists t', cur :: t = t' ++ [s; start].
Proof.
  intros E start s pre post Es Hpre; induction fuel as [|fuel IH];
    intros cur visited path p H Np Nv Nst t Et Is Nss; [discriminate|].
  pose proof H as H0.
  rewrite fcl_unfold in H; destruct (Nat.eqb_spec cur start) as [->|Nc].
  - injection H as <-. apply app_inv_head in Et; injection Et as <-.
    destruct Is as [->|[]]; congruence.
  - destruct (Nat.eq_dec cur s) as [->|Ns].
    + rewrite Es in H.
      assert (H' : p = (path ++ [s]) ++ [start]).
      { assert (G : forall pre', incl pre' pre ->
          search (find_closed_loop fuel (build_graph E) start) (s :: visited) (path ++ [s])
                 (pre' ++ start :: post) = Some p -> p = (path ++ [s]) ++ [start]).
        { induction pre' as [|x pre' IHp]; intros I G; cbn [app search] in G.
          - replace (existsb (Nat.eqb start) (s :: visited)) with false in G.
            + destruct fuel as [|fuel]; [discriminate|].
              rewrite fcl_unfold, Nat.eqb_refl in G. cbn [bind] in G.
              destruct ((path ++ [s]) ++ [start]) eqn:Q; [destruct path; discriminate|].
              injection G as <-; reflexivity.
            + symmetry; apply existsb_nin; intros [?|?]; [congruence|auto].
          - destruct (existsb (Nat.eqb x) (s :: visited)) eqn:Ex;
              [apply IHp; [intros z Hz; apply I; now right|exact G]|].
            apply existsb_nin in Ex.
            destruct (find_closed_loop fuel (build_graph E) start x (s :: visited) (path ++ [s]))
              as [[|a q]|] eqn:R; cbn [bind] in G; [apply IHp; [intros z Hz; apply I; now right|exact G]| |discriminate].
            exfalso; destruct (fcl_sound _ _ _ _ _ _ _ R ltac:(discriminate) Ex) as (t1 & _ & L & _ & _ & P).
            apply (Hpre x t1); [apply I; now left|exact P|exact L]. }
        apply (G pre); [apply incl_refl|exact H]. }
      subst p; rewrite <- app_assoc in H'. apply app_inv_head in H'. injection H' as ->.
      exists []; reflexivity.
    + assert (Q : forall nodes, search (find_closed_loop fuel (build_graph E) start) (cur :: visited)
                    (path ++ [cur]) nodes = Some p ->
              exists x, find_closed_loop fuel (build_graph E) start x (cur :: visited) (path ++ [cur]) = Some p
                        /\ ~ In x (cur :: visited)).
      { induction nodes as [|x nodes IHn]; intros G; cbn [search] in G; [congruence|].
        destruct (existsb (Nat.eqb x) (cur :: visited)) eqn:Ex; [apply IHn, G|].
        apply existsb_nin in Ex.
        destruct (find_closed_loop fuel (build_graph E) start x (cur :: visited) (path ++ [cur]))
          as [[|a q]|] eqn:R; cbn [bind] in G; [apply IHn, G| |discriminate].
        injection G as <-; exists x; auto. }
      destruct (Q _ H) as (x & R & Nx).
      destruct (fcl_sound _ _ _ _ _ _ _ R Np Nx) as (t1 & Et1 & _).
      assert (T : t = x :: t1).
      { rewrite Et, <- app_assoc in Et1; apply app_inv_head in Et1; injection Et1 as ->; reflexivity. }
      subst t.
      destruct (IH _ _ _ _ R Np Nx) with (t := t1) as (t' & Ht'); auto.
      * intros [?|?]; [congruence|auto].
      * destruct Is as [?|Is]; [congruence|exact Is].
      * exists (cur :: t'); cbn; now rewrite Ht'.
Qed.

(** ** The loop found for one edge *)

Definition loop_from (E : list (nat * nat)) (s e : nat) : list nat :=
  match find_closed_loop (length E + 1) (build_graph E) s e [] [] with Some p => p | None => [] end.

Lemma in_heads : forall E u v, In (u, v) E -> In v (heads E).
Proof. intros E u v H; unfold heads; apply in_map_iff; exists (u, v); auto. Qed.
Lemma loop_from_eq : forall E s e, In (s, e) E ->
  find_closed_loop (length E + 1) (build_graph E) s e [] [] = Some (loop_from E s e).
Proof.
  intros E s e H; unfold loop_from.
  destruct (find_closed_loop _ _ _ _ _ _) eqn:F; [reflexivity|].
  exfalso; revert F; apply fcl_total; cbn; [lia|constructor; [tauto|constructor]|].
  intros x [<-|[]]; exact (in_heads _ _ _ H).
Qed.
Lemma last_snoc : forall (l : list nat) d, l <> [] -> l = removelast l ++ [last l d].
Proof. intros l d H; apply app_removelast_last, H. Qed.
Lemma last_in : forall l : list nat, l <> [] -> In (last l 0) l.
Proof.
  intros l N; rewrite (last_snoc l 0) at 2 by exact N. apply in_or_app; right; now left.
Qed.
Lemma loop_from_sound : forall E s e, In (s, e) E -> loop_from E s e <> [] ->
  exists t, loop_from E s e = e :: t /\ last (e :: t) 0 = s /\ cycle E (e :: t).
Proof.
  intros E s e H N. pose proof (loop_from_eq E s e H) as F.
  destruct (fcl_sound _ _ _ _ _ _ _ F N) as (t & Et & L & Nd & _ & P); [tauto|].
  cbn [app] in Et. exists t; split; [exact Et|]; split; [exact L|].
  split; [exact Nd|]. exists e, t; split; [reflexivity|].
  rewrite (last_snoc (e :: t) 0) in P |- * by discriminate. rewrite L in *.
  rewrite <- app_assoc; cbn [app]. apply path_in_app; split; [exact P|].
  apply path_in_cons; split; [exact H|apply path_in_one].
Qed.
Lemma simple_path : forall E t x, path_in E (x :: t) ->
  exists t', path_in E (x :: t') /\ NoDup (x :: t') /\ last (x :: t') 0 = last (x :: t) 0.
Proof.
  intros E; induction t as [|y t IH]; intros x P.
  - exists []; split; [exact P|]; split; [constructor; [tauto|constructor]|reflexivity].
  - apply path_in_cons in P as (Hxy & P). destruct (IH _ P) as (t' & P' & N & L).
    destruct (in_dec Nat.eq_dec x (y :: t')) as [I|NI].
    + apply in_split in I as (a & b & Eq). rewrite Eq in P', N, L.
      exists b; split; [exact (path_in_suffix _ _ _ P')|]; split.
      * clear - N; induction a; [exact N|apply IHa; now inversion N].
      * change (last (x :: y :: t) 0) with (last (y :: t) 0); rewrite <- L.
        clear; induction a as [|z a IHa]; [reflexivity|].
        cbn [app]. rewrite IHa. destruct (a ++ x :: b) eqn:Q; [destruct a; discriminate|reflexivity].
    + exists (y :: t'); split; [apply path_in_cons; auto|]; split; [constructor; assumption|exact L].
Qed.
Lemma loop_from_complete : forall E s e t, In (s, e) E -> path_in E (e :: t) ->
  last (e :: t) 0 = s -> loop_from E s e <> [].
Proof.
  intros E s e t H P L Q. destruct (simple_path _ _ _ P) as (t' & P' & N & L').
  pose proof (loop_from_eq E s e H) as F; rewrite Q in F; revert F.
  apply fcl_complete with (t := t'); auto.
  - cbn; lia.
  - constructor; [tauto|constructor].
  - intros x [<-|[]]; exact (in_heads _ _ _ H).
  - now rewrite L'.
  - intros x _ [].
Qed.

(** ** All loops found *)

Definition found (E : list (nat * nat)) (starts : list nat) : list (list nat) :=
  flat_map (fun s => flat_map (fun e => match loop_from E s e with [] => [] | p => [p] end)
                              (succs E s)) starts.
Lemma all_loops_eq : forall ord E, (forall l, Permutation (ord l) l) ->
  all_loops ord E = Some (found E (ord (keys (build_graph E)))).
Proof.
  intros ord E Po; unfold all_loops.
  assert (K : forall s, In s (ord (keys (build_graph E))) -> lookup (build_graph E) s = Some (succs E s)).
  { intros s H. apply (Permutation_in _ (Po _)) in H. apply in_keys_build in H.
    rewrite lookup_build; destruct (succs E s); [congruence|reflexivity]. }
  revert K; generalize (ord (keys (build_graph E))) as starts.
  assert (G : forall starts acc, (forall s, In s starts -> lookup (build_graph E) s = Some (succs E s)) ->
    foldM (fun loops start =>
      match lookup (build_graph E) start with
      | None => None
      | Some ends =>
        foldM (fun loops e =>
          p <- find_closed_loop (length E + 1) (build_graph E) start e [] [] ;;
          match p with [] => Some loops | _ => Some (loops ++ [p]) end) ends loops
      end) starts acc = Some (acc ++ found E starts)).
  2:{ intros starts K; apply (G starts [] K). }
  induction starts as [|s starts IH]; intros acc K; cbn [foldM found flat_map].
  - now rewrite app_nil_r.
  - rewrite (K s) by now left.
    assert (G : forall ends acc, incl ends (succs E s) ->
      foldM (fun loops e =>
          p <- find_closed_loop (length E + 1) (build_graph E) s e [] [] ;;
          match p with [] => Some loops | _ => Some (loops ++ [p]) end) ends acc
      = Some (acc ++ flat_map (fun e => match loop_from E s e with [] => [] | p => [p] end) ends)).
    { induction ends as [|e ends IHe]; intros acc' I; cbn [foldM flat_map]; [now rewrite app_nil_r|].
      rewrite loop_from_eq by (apply in_succs, I; now left). cbn [bind].
      destruct (loop_from E s e); cbn [bind].
      - apply IHe; intros x Hx; apply I; now right.
      - rewrite IHe by (intros x Hx; apply I; now right). now rewrite <- app_assoc. }
    rewrite G by apply incl_refl. cbn [bind]. rewrite IH by (intros; apply K; now right).
    now rewrite <- app_assoc.
Qed.
Lemma in_found : forall E starts l, In l (found E starts) <->
  exists s e, In s starts /\ In (s, e) E /\ l = loop_from E s e /\ l <> [].
Proof.
  intros E starts l; unfold found; rewrite in_flat_map; split.
  - intros (s & Hs & H); apply in_flat_map in H as (e & He & H).
    exists s, e; apply in_succs in He. destruct (loop_from E s e); [destruct H|].
    destruct H as [<-|[]]; repeat split; auto; discriminate.
  - intros (s & e & Hs & He & -> & N); exists s; split; [exact Hs|].
    apply in_flat_map; exists e; split; [now apply in_succs|].
    destruct (loop_from E s e); [congruence|now left].
Qed.
Lemma found_starts : forall ord E s e, (forall l, Permutation (ord l) l) -> In (s, e) E ->
  In s (ord (keys (build_graph E))).
Proof.
  intros ord E s e Po H. apply (Permutation_in s (Permutation_sym (Po _))).
  apply in_keys_build. intros Q. apply in_succs in H; rewrite Q in H; destruct H.
Qed.
Lemma found_cycle : forall E starts l, In l (found E starts) -> cycle E l.
Proof.
  intros E starts l H; apply in_found in H as (s & e & _ & He & -> & N).
  destruct (loop_from_sound _ _ _ He N) as (t & -> & _ & C); exact C.
Qed.

(** ** The filter *)

Definition covers (l1 l2 : list nat) : bool :=
  negb (length (l1 ++ l1) <? length l2) && is_subsequence (l1 ++ l1) l2.

Lemma list_eqb_eq : forall a b, list_eqb a b = true <-> a = b.
Proof. intros a b; unfold list_eqb; destruct (list_eq_dec _ a b); split; congruence. Qed.

Lemma covers_spec : forall h l, length l <= length h -> l <> [] ->
  (covers h l = true <-> exists c, rotation h (l ++ c)).
Proof.
  intros h l Hl Nl.
  assert (Hp : 0 < length l) by (destruct l; cbn; [congruence|lia]).
  unfold covers, is_subsequence; rewrite app_length.
  replace (length h + length h <? length l) with false by (symmetry; apply Nat.ltb_ge; lia).
  cbn [negb andb]. rewrite existsb_exists; split.
  - intros (i & Hi & Q). apply in_seq in Hi. apply list_eqb_eq in Q.
    assert (A : exists a b, h = a ++ b /\ exists r, firstn (length l) (b ++ a ++ r) = l).
    { destruct (Nat.le_gt_cases i (length h)) as [Hle|Hgt].
      - exists (firstn i h), (skipn i h); split; [now rewrite firstn_skipn|]. exists (skipn i h).
        rewrite firstn_skipn. rewrite skipn_app in Q.
        replace (i - length h) with 0 in Q by lia. exact Q.
      - exists (firstn (i - length h) h), (skipn (i - length h) h).
        split; [now rewrite firstn_skipn|].
        rewrite skipn_app, skipn_all2 in Q by lia. cbn [app] in Q.
        exists []. rewrite firstn_app.
        replace (length l - length (skipn (i - length h) h)) with 0.
        + cbn; rewrite app_nil_r; exact Q.
        + rewrite <- Q, firstn_length. lia. }
    destruct A as (a & b & -> & r & Q'). rewrite app_length in Hl.
    rewrite app_assoc, firstn_app in Q'.
    replace (length l - length (b ++ a)) with 0 in Q' by (rewrite app_length; lia).
    cbn in Q'; rewrite app_nil_r in Q'.
    exists (skipn (length l) (b ++ a)). exists a, b; split; [reflexivity|].
    rewrite <- Q' at 1. now rewrite firstn_skipn.
  - intros (c & a & b & -> & Q).
    assert (A : exists a' b', a ++ b = a' ++ b' /\ l ++ c = b' ++ a' /\ b' <> []).
    { destruct b; [|exists a, (n :: b); repeat split; auto; discriminate].
      cbn in Q. exists [], a; rewrite !app_nil_r in *; split; [auto|]; split; [auto|].
      intros ->; destruct l; [congruence|discriminate]. }
    destruct A as (a' & b' & Eh & Q' & Nb). rewrite Eh in *.
    exists (length a'); split.
    + apply in_seq. rewrite !app_length in *.
      assert (0 < length b') by (destruct b'; cbn; [congruence|lia]). lia.
    + apply list_eqb_eq.
      rewrite <- app_assoc, skipn_app, skipn_all, Nat.sub_diag; cbn [app skipn].
      rewrite app_assoc, <- Q', <- app_assoc, firstn_app, firstn_all, Nat.sub_diag; cbn.
      apply app_nil_r.
Qed.

Lemma covers_length : forall h l : list nat, NoDup l -> incl l h -> length l <= length h.
Proof. intros h l N I; apply NoDup_incl_length; assumption. Qed.

Section Filter.
  Variable L : list (list nat).
  Hypothesis HL : Forall (fun l => l <> []) L.
  Let at_ (i : nat) := nth i L [].
  Lemma at_nonempty : forall i, i < length L -> length (at_ i) =? 0 = false.
  Proof.
    intros i Hi; apply Nat.eqb_neq. rewrite Forall_forall in HL.
    specialize (HL (at_ i) (nth_In L [] Hi)). destruct (at_ i); [congruence|cbn; lia].
  Qed.
  Lemma drop_inner_eq : forall l1 rem j, j < length L ->
    drop_inner L l1 rem j = if covers l1 (at_ j) then rem ++ [j] else rem.
  Proof.
    intros l1 rem j Hj; unfold drop_inner. fold (at_ j). rewrite at_nonempty by exact Hj.
    unfold covers. destruct (length (l1 ++ l1) <? length (at_ j)); reflexivity.
  Qed.
  Lemma drop_inner_fold : forall l1 k a rem, a + k <= length L -> forall j,
    In j (fold_left (drop_inner L l1) (seq a k) rem) <->
    In j rem \/ (a <= j < a + k /\ covers l1 (at_ j) = true).
  Proof.
    intros l1; induction k as [|k IH]; intros a rem Hk j; cbn [seq fold_left].
    - split; [auto|intros [H|H]; [exact H|lia]].
    - rewrite IH by lia. rewrite drop_inner_eq by lia.
      destruct (covers l1 (at_ a)) eqn:C.
      + rewrite in_app_iff; cbn [In]. split.
        * intros [[H|[<-|[]]]|H]; [auto|right; split; [lia|exact C]|right; split; [lia|tauto]].
        * intros [H|(H & C')]; [auto|]. destruct (Nat.eq_dec a j) as [->|]; [auto|].
          right; split; [lia|exact C'].
      + split; [intros [H|H]; [auto|right; split; [lia|tauto]]|].
        intros [H|(H & C')]; [auto|]. destruct (Nat.eq_dec a j) as [->|]; [congruence|].
        right; split; [lia|exact C'].
  Qed.
  Let inv (k : nat) (rem : list nat) : Prop :=
    (forall j, In j rem -> exists i, i < k /\ i < j < length L /\ covers (at_ i) (at_ j) = true /\ ~ In i rem)
    /\ (forall i j, i < k -> i < j < length L -> ~ In i rem -> covers (at_ i) (at_ j) = true -> In j rem).
  Lemma to_drop_inv : forall k, k <= length L ->
    inv k (fold_left (drop_outer L) (seq 0 k) []).
  Proof.
    induction k as [|k IH]; intros Hk.
    - split; [intros j []|intros; lia].
    - rewrite seq_S, fold_left_app; cbn [fold_left Nat.add].
      specialize (IH ltac:(lia)). set (rem := fold_left (drop_outer L) (seq 0 k) []) in *.
      destruct IH as (I1 & I2).
      unfold drop_outer; fold (at_ k); rewrite at_nonempty by lia.
      destruct (existsb (Nat.eqb k) rem) eqn:Ek.
      + apply existsb_in in Ek. split.
        * intros j Hj; destruct (I1 j Hj) as (i & A & B & C & D); exists i; repeat split; auto; lia.
        * intros i j Hi Hj Ni C. destruct (Nat.eq_dec i k) as [->|]; [congruence|].
          apply (I2 i j); auto; lia.
      + apply existsb_nin in Ek.
        pose proof (drop_inner_fold (at_ k) (length L - (k + 1)) (k + 1) rem ltac:(lia)) as F.
        set (rem' := fold_left _ _ rem) in *.
        assert (G : forall i, i <= k -> ~ In i rem -> ~ In i rem').
        { intros i Hi N H; apply F in H as [H|(H & _)]; [auto|lia]. }
        split.
        * intros j Hj; apply F in Hj as [Hj|(Hj & C)].
          -- destruct (I1 j Hj) as (i & A & B & C & D); exists i; repeat split; auto; try lia.
             apply G; [lia|exact D].
          -- exists k; repeat split; auto; lia.
        * intros i j Hi Hj Ni C. apply F.
          assert (Ni' : ~ In i rem) by (intros H; apply Ni, F; now left).
          destruct (Nat.eq_dec i k) as [->|]; [right; split; [lia|exact C]|].
          left; apply (I2 i j); auto; lia.
  Qed.
  Lemma in_keep : forall l, In l (keep_loops L) <->
    exists i, i < length L /\ ~ In i (to_drop L) /\ at_ i = l.
  Proof.
    intros l; unfold keep_loops; rewrite in_map_iff; split.
    - intros (i & Q & H); apply filter_In in H as (H & K); apply in_seq in H.
      exists i; split; [lia|]; split; [|exact Q].
      apply existsb_nin. destruct (existsb _ _); [discriminate|reflexivity].
    - intros (i & H & N & Q); exists i; split; [exact Q|]. apply filter_In; split; [apply in_seq; lia|].
      apply existsb_nin in N; now rewrite N.
  Qed.
  (** every loop is kept or covered by a loop that is kept *)
  Lemma keep_covers : forall l, In l L -> In l (keep_loops L) \/
    exists l', In l' (keep_loops L) /\ covers l' l = true.
  Proof.
    intros l H; apply In_nth with (d := []) in H as (j & Hj & Q).
    destruct (in_dec Nat.eq_dec j (to_drop L)) as [D|D].
    - right. destruct (to_drop_inv (length L) (le_n _)) as (I1 & _).
      destruct (I1 j D) as (i & A & B & C & N). exists (at_ i); split.
      + apply in_keep; exists i; repeat split; auto.
      + fold (at_ j) in Q; rewrite <- Q; exact C.
    - left; apply in_keep; exists j; auto.
  Qed.
  Lemma keep_first : forall l L', L = l :: L' -> exists K, keep_loops L = l :: K.
  Proof.
    intros l L' E.
    assert (N : ~ In 0 (to_drop L)).
    { intros H. destruct (to_drop_inv (length L) (le_n _)) as (I1 & _).
      destruct (I1 0 H) as (i & _ & B & _); lia. }
    assert (Q : length L = S (length L')) by (rewrite E; reflexivity).
    assert (Q0 : nth 0 L [] = l) by (rewrite E; reflexivity).
    unfold keep_loops. rewrite Q. cbn [seq filter].
    apply existsb_nin in N; rewrite N. cbn [negb map]. rewrite Q0. eexists; reflexivity.
  Qed.
  (** when every loop is covered by the first, only the first is kept *)
  Lemma keep_one : forall l L', L = l :: L' -> (forall l', In l' L' -> covers l l' = true) ->
    keep_loops L = [l].
  Proof.
    intros l L' E C.
    assert (N : ~ In 0 (to_drop L)).
    { intros H. destruct (to_drop_inv (length L) (le_n _)) as (I1 & _).
      destruct (I1 0 H) as (i & _ & B & _); lia. }
    assert (Q : length L = S (length L')) by (rewrite E; reflexivity).
    assert (Q0 : nth 0 L [] = l) by (rewrite E; reflexivity).
    unfold keep_loops. rewrite Q. cbn [seq filter].
    pose proof N as N0. apply existsb_nin in N; rewrite N. cbn [negb map]. rewrite Q0.
    replace (filter _ (seq 1 (length L'))) with (@nil nat); [reflexivity|].
    symmetry.
    assert (G : forall j, In j (seq 1 (length L')) -> negb (existsb (Nat.eqb j) (to_drop L)) = false).
    { intros j Hj; apply in_seq in Hj. apply negb_false_iff, existsb_in.
      destruct (to_drop_inv (length L) (le_n _)) as (_ & I2).
      assert (length L = S (length L')) by (rewrite E; reflexivity).
      apply (I2 0 j); auto; try lia.
      unfold at_; rewrite E; cbn [nth]. destruct j as [|j]; [lia|]. apply C, nth_In; lia. }
    revert G. generalize (seq 1 (length L')) as s; induction s as [|j s IH]; intros G; [reflexivity|].
    cbn [filter]. rewrite G by now left. apply IH; intros; apply G; now right.
  Qed.
End Filter.

(** ** Results of [get_closed_loops] *)

Section Loops.
  Variable ord : list nat -> list nat.
  Hypothesis Hord : forall l, Permutation (ord l) l.
  Variable E : list (nat * nat).
  Let L := found E (ord (keys (build_graph E))).

  Lemma loops_eq : get_closed_loops ord E = Some (keep_loops L).
  Proof. unfold get_closed_loops; rewrite all_loops_eq by exact Hord; reflexivity. Qed.
  Lemma found_nonempty : Forall (fun l => l <> []) L.
  Proof. apply Forall_forall; intros l H; apply in_found in H as (s & e & _ & _ & _ & N); exact N. Qed.
  Lemma in_L : forall l, In l L <-> exists s e, In (s, e) E /\ l = loop_from E s e /\ l <> [].
  Proof.
    intros l; unfold L; rewrite in_found; split.
    - intros (s & e & _ & H); exists s, e; exact H.
    - intros (s & e & H & Q); exists s, e; split; [exact (found_starts _ _ _ _ Hord H)|auto].
  Qed.
  Lemma in_keep_L : forall l, In l (keep_loops L) -> In l L.
  Proof.
    intros l H; apply (in_keep L) in H as (i & Hi & _ & <-); apply nth_In, Hi.
  Qed.
  Lemma keep_cycle : forall l, In l (keep_loops L) -> cycle E l.
  Proof. intros l H; apply in_keep_L in H; exact (found_cycle _ _ _ H). Qed.

  Lemma cycle_edge : forall c, cycle E c -> forall x, In x c ->
    exists s t, last (x :: t) 0 = s /\ In (s, x) E /\ cycle E (x :: t).
  Proof.
    intros c C x Hx. apply in_split in Hx as (a & b & ->).
    assert (C' : cycle E ((x :: b) ++ a)).
    { apply rotation_cycle with (a ++ x :: b); [exists a, (x :: b); auto|exact C]. }
    exists (last (x :: b ++ a) 0), (b ++ a); split; [reflexivity|]; split; [|exact C'].
    destruct C' as (_ & y & l & Eq & P). cbn [app] in Eq. injection Eq as <- <-.
    change (path_in E ((x :: b ++ a) ++ [x])) in P.
    rewrite (last_snoc (x :: b ++ a) 0) in P by discriminate.
    rewrite <- app_assoc in P; cbn [app] in P. apply path_in_app in P as (_ & P).
    apply path_in_cons in P as (P & _); exact P.
  Qed.
  Lemma node_found : forall c, cycle E c -> forall x, In x c -> exists l, In l L /\ In x l.
  Proof.
    intros c C x Hx. destruct (cycle_edge c C x Hx) as (s & t & Ls & He & C').
    assert (N : loop_from E s x <> []).
    { apply loop_from_complete with (t := t); auto. exact (cycle_path _ _ C'). }
    exists (loop_from E s x); split; [apply in_L; exists s, x; auto|].
    destruct (loop_from_sound _ _ _ He N) as (t' & -> & _); now left.
  Qed.
  (** every node of a cycle lies on a reported loop *)
  Lemma node_reported : forall c, cycle E c -> forall x, In x c ->
    exists l, In l (keep_loops L) /\ In x l.
  Proof.
    intros c C x Hx. destruct (node_found c C x Hx) as (l & Hl & Ix).
    destruct (keep_covers L found_nonempty l Hl) as [K|(l' & K & Cv)]; [exists l; auto|].
    exists l'; split; [exact K|].
    unfold covers in Cv; apply andb_prop in Cv as (_ & Cv).
    unfold is_subsequence in Cv; apply existsb_exists in Cv as (i & _ & Q).
    apply list_eqb_eq in Q. rewrite <- Q in Ix.
    assert (I2 : In x (l' ++ l')).
    { rewrite <- (firstn_skipn i (l' ++ l')); apply in_or_app; right.
      rewrite <- (firstn_skipn (length l) (skipn i (l' ++ l'))); apply in_or_app; now left. }
    apply in_app_iff in I2; tauto.
  Qed.
  (** no reported loop is a rotation of another one, or a contiguous part of one reported before it *)
  Lemma keep_distinct : forall i j l1 l2, i < j -> nth_error (keep_loops L) i = Some l1 ->
    nth_error (keep_loops L) j = Some l2 -> forall c, ~ rotation l1 (l2 ++ c).
  Proof.
    intros i j l1 l2 Hij G1 G2 c R.
    assert (I1 : In l1 (keep_loops L)) by exact (nth_error_In _ _ G1).
    assert (I2 : In l2 (keep_loops L)) by exact (nth_error_In _ _ G2).
    assert (Cv : covers l1 l2 = true).
    { apply covers_spec; [|exact (cycle_nonempty _ _ (keep_cycle _ I2))|exists c; exact R].
      apply rotation_perm, Permutation_length in R. rewrite app_length in R; lia. }
    unfold keep_loops in G1, G2.
    rewrite nth_error_map in G1, G2.
    set (F := filter _ (seq 0 (length L))) in *.
    destruct (nth_error F i) as [a|] eqn:Fa; [|discriminate].
    destruct (nth_error F j) as [b|] eqn:Fb; [|discriminate].
    cbn in G1, G2; injection G1 as G1; injection G2 as G2.
    assert (Hab : a < b).
    { assert (S : forall k s n i j a b, nth_error (filter k (seq s n)) i = Some a ->
        nth_error (filter k (seq s n)) j = Some b -> i < j -> a < b).
      { clear; intros k s n; revert s; induction n as [|n IH]; intros s i j a b A B Hij; cbn in *.
        - destruct i; discriminate.
        - destruct (k s) eqn:Ks.
          + destruct j as [|j]; [lia|]; cbn in B. destruct i as [|i]; cbn in A.
            * injection A as <-. apply nth_error_In, filter_In in B as (B & _); apply in_seq in B; lia.
            * apply (IH _ _ _ _ _ A B); lia.
          + apply (IH _ _ _ _ _ A B); lia. }
      exact (S _ _ _ _ _ _ _ Fa Fb Hij). }
    apply nth_error_In, filter_In in Fa as (Sa & Da). apply nth_error_In, filter_In in Fb as (Sb & Db).
    apply in_seq in Sa, Sb.
    destruct (to_drop_inv L found_nonempty (length L) (le_n _)) as (_ & T).
    assert (In b (to_drop L)).
    { apply (T a b); [lia|lia| |rewrite G1, G2; exact Cv].
      apply existsb_nin; unfold to_drop in Da; destruct (existsb _ _); [discriminate|reflexivity]. }
    apply existsb_in in H; rewrite H in Db; discriminate.
  Qed.
End Loops.

(** ** Independence of the map order, when a single loop is reported *)

Lemma nodup_app_mid : forall (x : nat) a b a' b', NoDup (a ++ x :: b) ->
  a ++ x :: b = a' ++ x :: b' -> a = a' /\ b = b'.
Proof.
  intros x; induction a as [|z a IH]; intros b a' b' N Q; destruct a' as [|w a']; cbn in *.
  - injection Q as ->; auto.
  - injection Q as -> ->. inversion N; subst. exfalso; apply H1, in_or_app; right; now left.
  - injection Q as -> <-. inversion N; subst. exfalso; apply H1, in_or_app; right; now left.
  - injection Q as -> Q. inversion N; subst. destruct (IH _ _ _ H2 Q) as (-> & ->); auto.
Qed.

Lemma found_first : forall E starts f F, found E starts = f :: F ->
  exists s e pre post, In (s, e) E /\ f = loop_from E s e /\ f <> []
    /\ succs E s = pre ++ e :: post /\ forall x, In x pre -> loop_from E s x = [].
Proof.
  intros E; induction starts as [|s starts IH]; intros f F Q; [discriminate|].
  cbn [found flat_map] in Q.
  assert (G : forall ends done, (forall x, In x done -> loop_from E s x = []) -> succs E s = done ++ ends ->
    flat_map (fun e => match loop_from E s e with [] => [] | p => [p] end) ends = [] \/
    exists e pre post rest, In (s, e) E /\ loop_from E s e <> []
      /\ succs E s = pre ++ e :: post /\ (forall x, In x pre -> loop_from E s x = [])
      /\ flat_map (fun e => match loop_from E s e with [] => [] | p => [p] end) ends
         = loop_from E s e :: rest).
  { induction ends as [|e ends IHe]; intros done Hd Hs; cbn [flat_map]; [now left|].
    destruct (loop_from E s e) as [|a p] eqn:Lf.
    - cbn [app]. apply (IHe (done ++ [e])).
      + intros x Hx; apply in_app_iff in Hx as [Hx|[<-|[]]]; auto.
      + rewrite <- app_assoc; exact Hs.
    - right. exists e, done, ends, (flat_map (fun e => match loop_from E s e with [] => [] | p => [p] end) ends).
      repeat split; auto.
      + apply in_succs; rewrite Hs; apply in_or_app; right; now left.
      + rewrite Lf; discriminate.
      + rewrite Lf; reflexivity. }
  destruct (G (succs E s) [] ltac:(intros x []) eq_refl) as [G0|(e & pre & post & rest & A & B & C & D & G0)].
  - rewrite G0 in Q. cbn [app] in Q. exact (IH _ _ Q).
  - rewrite G0 in Q. cbn [app] in Q. injection Q as <- _.
    exists s, e, pre, post; auto.
Qed.

Lemma single_order_free : forall ord1 ord2 E h,
  (forall l, Permutation (ord1 l) l) -> (forall l, Permutation (ord2 l) l) -> loopless E ->
  get_closed_loops ord1 E = Some [h] ->
  exists h', get_closed_loops ord2 E = Some [h'] /\ rotation h h'.
Proof.
  intros ord1 ord2 E h P1 P2 NL G1.
  rewrite (loops_eq ord1 P1) in G1. injection G1 as K1.
  set (L1 := found E (ord1 (keys (build_graph E)))) in *.
  assert (Ch : cycle E h) by (apply (keep_cycle ord1); fold L1; rewrite K1; now left).
  assert (Hh : In h L1) by (apply (in_keep_L ord1); fold L1; rewrite K1; now left).
  (* every loop is a prefix of a rotation of h *)
  assert (A1 : forall l, In l L1 -> exists c, rotation h (l ++ c)).
  { intros l Hl. destruct (keep_covers L1 (found_nonempty ord1 E) l Hl) as [K|(l' & K & Cv)].
    - rewrite K1 in K; destruct K as [<-|[]]. exists []; rewrite app_nil_r; apply rotation_refl.
    - rewrite K1 in K; destruct K as [<-|[]].
      apply covers_spec in Cv; [exact Cv| |].
      + apply NoDup_incl_length; [exact (proj1 (found_cycle _ _ _ Hl))|].
        intros x Hx. unfold covers in Cv; apply andb_prop in Cv as (_ & Cv).
        unfold is_subsequence in Cv; apply existsb_exists in Cv as (i & _ & Q).
        apply list_eqb_eq in Q. rewrite <- Q in Hx.
        assert (I2 : In x (h ++ h)).
        { rewrite <- (firstn_skipn i (h ++ h)); apply in_or_app; right.
          rewrite <- (firstn_skipn (length l) (skipn i (h ++ h))); apply in_or_app; now left. }
        apply in_app_iff in I2; tauto.
      + exact (cycle_nonempty _ _ (found_cycle _ _ _ Hl)). }
  assert (A : forall s e, In (s, e) E -> loop_from E s e <> [] ->
                exists c, rotation h (loop_from E s e ++ c)).
  { intros s e He N. apply A1. apply (in_L ord1 P1); exists s, e; auto. }
  rewrite (loops_eq ord2 P2). set (L2 := found E (ord2 (keys (build_graph E)))).
  destruct L2 as [|f F2] eqn:EL2.
  { exfalso. apply (in_L ord1 P1) in Hh. apply (in_L ord2 P2) in Hh. fold L2 in Hh; rewrite EL2 in Hh; destruct Hh. }
  destruct (found_first _ _ _ _ EL2) as (s & e & pre & post & He & Ef & Nf & Es & Hpre).
  rewrite Ef in Nf. destruct (A s e He Nf) as (c & Rc). rewrite <- Ef in Nf, Rc.
  (* f is a whole rotation *)
  assert (Rf : rotation h f).
  { destruct c as [|c0 c]; [rewrite app_nil_r in Rc; exact Rc|exfalso].
    rewrite Ef in Nf. destruct (loop_from_sound _ _ _ He Nf) as (t & Et & Ls & Cf). rewrite <- Ef in Et.
    pose proof (rotation_nodup _ _ Rc (proj1 Ch)) as Nd.
    pose proof (rotation_cycle _ _ _ Rc Ch) as CR.
    destruct t as [|y t].
    { cbn in Ls; subst; apply (NL s He). }
    rewrite Et in *.
    (* the loop found from e through y *)
    assert (Hey : In (e, y) E).
    { pose proof (cycle_path _ _ Cf) as P; apply path_in_cons in P; tauto. }
    assert (Py : path_in E (y :: t ++ (c0 :: c) ++ [e])).
    { destruct CR as (_ & x & l & Q & P). cbn [app] in Q; injection Q as <- <-.
      cbn [app] in P. apply path_in_cons in P as (_ & P). rewrite <- app_assoc in P. exact P. }
    assert (Ny : loop_from E e y <> []).
    { apply loop_from_complete with (t := t ++ (c0 :: c) ++ [e]); auto.
      rewrite app_assoc, app_comm_cons. apply last_last. }
    destruct (A e y Hey Ny) as (c' & Rc').
    destruct (loop_from_sound _ _ _ Hey Ny) as (t' & Et' & Ls' & Cy).
    rewrite Et' in Rc'.
    assert (RR : rotation ((e :: y :: t) ++ c0 :: c) ((y :: t') ++ c')).
    { apply rotation_trans with h; [apply rotation_sym, Rc|exact Rc']. }
    assert (Q : (y :: t') ++ c' = y :: t ++ (c0 :: c) ++ [e]).
    { destruct RR as (a & b & Q1 & Q2). destruct b as [|b0 b].
      - cbn [app] in Q2. rewrite app_nil_r in Q1. rewrite <- Q2 in Q1.
        cbn [app] in Q1, Nd. injection Q1 as Q1 _.
        exfalso. inversion Nd; subst. apply H1; now left.
      - injection Q2 as <- Q2. cbn [app] in Q1.
        change (e :: y :: t ++ c0 :: c) with ([e] ++ y :: (t ++ c0 :: c)) in Q1.
        destruct (nodup_app_mid y [e] (t ++ c0 :: c) a b Nd Q1) as (<- & <-).
        cbn [app]. f_equal. rewrite Q2, <- app_assoc. reflexivity. }
    assert (c' = []).
    { destruct c' as [|z c'] using rev_ind; [reflexivity|exfalso]. clear IHc'.
      rewrite (last_snoc (y :: t') 0), Ls' in Q by discriminate.
      assert (Q3 : (removelast (y :: t') ++ [e]) ++ c' ++ [z] = (y :: t ++ (c0 :: c)) ++ [e]).
      { rewrite Q. cbn [app]. now rewrite <- app_assoc. }
      rewrite app_assoc in Q3. apply app_inj_tail in Q3 as (Q3 & _).
      assert (In e (y :: t ++ c0 :: c)).
      { rewrite <- Q3. apply in_or_app; left; apply in_or_app; right; now left. }
      inversion Nd; auto. }
    subst c'; rewrite app_nil_r in Q. injection Q as Q.
    (* s is followed by e in it *)
    assert (Sin : In s (y :: t')).
    { rewrite Q. change (In s ((y :: t) ++ c0 :: c ++ [e])). apply in_or_app; left.
      rewrite <- Ls. exact (last_in (y :: t) ltac:(discriminate)). }
    assert (Nse : s <> e) by (intros ->; exact (NL _ He)).
    pose proof (loop_from_eq E e y Hey) as Fy.
    destruct (fcl_closes E e s pre post Es) with (fuel := length E + 1) (cur := y) (visited := @nil nat)
      (path := @nil nat) (p := loop_from E e y) (t := t') as (w & Hw); auto.
    { intros x tx Ix Px Lx.
      assert (Hsx : In (s, x) E) by (apply in_succs; rewrite Es; apply in_or_app; now left).
      pose proof (cycle_path _ _ Cf) as Pf.
      apply (loop_from_complete E s x (tx ++ y :: t) Hsx); [| |apply Hpre, Ix].
      - rewrite app_comm_cons. rewrite (last_snoc (x :: tx) 0), Lx by discriminate.
        rewrite <- app_assoc. cbn [app]. apply path_in_app; split; [|exact Pf].
        rewrite <- Lx, <- last_snoc by discriminate. exact Px.
      - rewrite <- Ls. change (last (e :: y :: t) 0) with (last (y :: t) 0).
        rewrite app_comm_cons. clear. generalize (x :: tx) as l; induction l as [|z l IH]; [reflexivity|].
        cbn [app]. rewrite <- IH. destruct (l ++ y :: t) eqn:Q; [destruct l; discriminate|reflexivity]. }
    rewrite Q in Hw. rewrite (last_snoc (e :: y :: t) 0) in Nd by discriminate.
    assert (Hw2 : (y :: t) ++ (c0 :: c) ++ [e] = w ++ [s; e]) by exact Hw.
    replace (w ++ [s; e]) with ((w ++ [s]) ++ [e]) in Hw2 by (rewrite <- app_assoc; reflexivity).
    rewrite app_assoc in Hw2. apply app_inj_tail in Hw2 as (Hw2 & _).
    rewrite (last_snoc (y :: t) 0) in Hw2 by discriminate.
    change (last (y :: t) 0) with (last (e :: y :: t) 0) in Hw2. rewrite Ls in *.
    rewrite <- app_assoc in Hw2. cbn [app] in Hw2.
    assert (Nd2 : NoDup (removelast (y :: t) ++ s :: c0 :: c)).
    { change (removelast (e :: y :: t)) with (e :: removelast (y :: t)) in Nd.
      rewrite <- app_assoc in Nd. cbn [app] in Nd. inversion Nd; assumption. }
    destruct (nodup_app_mid _ _ _ _ _ Nd2 Hw2) as (_ & Bad). discriminate. }
  exists f; split; [|exact Rf]. f_equal.
  assert (FN : Forall (fun l => l <> []) (f :: F2)) by (rewrite <- EL2; apply (found_nonempty ord2)).
  apply (keep_one (f :: F2) FN f F2); [reflexivity|].
  intros l Hl.
  assert (Hl2 : In l L2) by (rewrite EL2; now right).
  apply (in_L ord2 P2) in Hl2. destruct Hl2 as (s' & e' & He' & -> & N').
  destruct (A s' e' He' N') as (c' & Rc').
  assert (R2 : rotation f (loop_from E s' e' ++ c')) by (apply rotation_trans with h; [apply rotation_sym|]; assumption).
  apply covers_spec; [|exact N'|exists c'; exact R2].
  apply rotation_perm, Permutation_length in R2. rewrite app_length in R2; lia.
Qed.
