(** * Proofs about the search for a closed loop of a given length *)
From Coq Require Import Permutation.
From Verif Require Import Arr ArrFacts SpecGraph M_Tsp_Loops P_Tsp_Loops M_Tsp_GetLoops.
Local Open Scope nat_scope.

Definition as_loop (l : list nat) : option (list nat) := match l with [] => None | _ => Some l end.

(** the path found is that of the C++ search; the nodes seen stay outside every set of nodes that no
    edge enters from outside, if the search starts outside *)
Lemma find_loops_same E (C : nat -> Prop) start : (forall u v, In (u, v) E -> C v -> C u) ->
  forall fuel cur visited path seen p, ~ C cur ->
  find_closed_loop fuel (build_graph E) start cur visited path = Some p ->
  exists more, find_loops fuel (build_graph E) start cur visited path seen = Some (as_loop p, seen ++ more) /\
    forall x, In x more -> ~ C x.
Proof.
  intros HC. induction fuel as [|fuel IH]; intros cur visited path seen p Nc H; [discriminate|].
  cbn [find_loops find_closed_loop] in *. destruct (cur =? start).
  { injection H as <-. exists [cur]. split; [|intros x [<-|[]]; exact Nc]. destruct (path ++ [cur]) eqn:Q; [destruct path; discriminate|reflexivity]. }
  rewrite lookup_build in *. destruct (succs E cur) as [|y ys] eqn:Es; cbn [opt] in *.
  { injection H as <-. exists [cur]. split; [reflexivity|intros x [<-|[]]; exact Nc]. }
  assert (Ec' : forall v, In v (y :: ys) -> ~ C v) by (rewrite <- Es; intros v I Cv; apply in_succs in I; eauto).
  assert (G : forall nodes sn, (forall v, In v nodes -> ~ C v) ->
    (fix search (nodes : list nat) : option (list nat) :=
             match nodes with
             | [] => Some []
             | node :: nodes =>
                 if existsb (Nat.eqb node) (cur :: visited) then search nodes else
                 p <- find_closed_loop fuel (build_graph E) start node (cur :: visited) (path ++ [cur]) ;;
                 match p with [] => search nodes | _ => Some p end
             end) nodes = Some p ->
    exists more, (fix search (nodes seen : list nat) : option (option (list nat) * list nat) :=
             match nodes with
             | [] => Some (None, seen)
             | node :: nodes =>
                 if existsb (Nat.eqb node) (cur :: visited) then search nodes seen else
                 ' (r, seen) <- find_loops fuel (build_graph E) start node (cur :: visited) (path ++ [cur]) seen ;;
                 match r with Some (x :: p) => Some (Some (x :: p), seen) | _ => search nodes seen end
             end) nodes sn = Some (as_loop p, sn ++ more) /\ forall x, In x more -> ~ C x).
  { induction nodes as [|node nodes IHn]; intros sn Hn Hp.
    - injection Hp as <-. exists []. split; [now rewrite app_nil_r|intros x []].
    - destruct (existsb (Nat.eqb node) (cur :: visited)); [apply IHn; [intros v Hv; apply Hn; now right|exact Hp]|].
      destruct (find_closed_loop fuel (build_graph E) start node (cur :: visited) (path ++ [cur])) as [q|] eqn:F; [|discriminate].
      cbn [bind] in Hp. destruct (IH node _ _ sn q (Hn node (or_introl eq_refl)) F) as (m1 & E1 & M1). rewrite E1. cbn [bind].
      destruct q as [|x q]; cbn [as_loop].
      + destruct (IHn (sn ++ m1)) as (m2 & E2 & M2); [intros v Hv; apply Hn; now right|exact Hp|]. exists (m1 ++ m2).
        split; [rewrite E2, app_assoc; reflexivity|]. intros z Hz. apply in_app_or in Hz as [Hz|Hz]; auto.
      + injection Hp as <-. exists m1. split; [reflexivity|exact M1]. }
  destruct (G (y :: ys) (seen ++ [cur]) Ec' H) as (m & Em & Hm). exists (cur :: m). split; [rewrite Em, <- app_assoc; reflexivity|].
  intros x [<-|Hx]; auto.
Qed.

(** what the search gives for an edge *)
Lemma find_loops_from E s e seen : In (s, e) E -> exists more,
  find_loops (length E + 1) (build_graph E) s e [] [] seen = Some (as_loop (loop_from E s e), seen ++ more) /\
  forall C : nat -> Prop, (forall u v, In (u, v) E -> C v -> C u) -> ~ C e -> forall x, In x more -> ~ C x.
Proof.
  intros H. pose proof (loop_from_eq E s e H) as F.
  destruct (find_loops_same E (fun _ => False) s (fun _ _ _ X => X) _ e [] [] seen _ (fun X => X) F) as (m & Em & _).
  exists m. split; [exact Em|]. intros C HC Ne x Hx.
  destruct (find_loops_same E C s HC _ e [] [] seen _ Ne F) as (m' & Em' & Hm). rewrite Em in Em'. injection Em' as Q.
  apply app_inv_head in Q. subst m'. auto.
Qed.

Definition finds (E : list (nat * nat)) (L s e : nat) : Prop := loop_from E s e <> [] /\ length (loop_from E s e) = L.
Lemma finds_dec E L s e : {finds E L s e} + {~ finds E L s e}.
Proof.
  unfold finds. destruct (list_eq_dec Nat.eq_dec (loop_from E s e) []) as [->|N]; [right; intros (H & _); congruence|].
  destruct (Nat.eq_dec (length (loop_from E s e)) L); [left|right]; tauto.
Qed.
Lemma try_ends_spec E L s : forall ends seen, (forall e, In e ends -> In (s, e) E) ->
  exists r more, try_ends (length E + 1) (build_graph E) L s ends seen = Some (r, seen ++ more) /\
    match r with
    | Some l => exists e, In e ends /\ finds E L s e /\ l = loop_from E s e
    | None => (forall e, In e ends -> ~ finds E L s e) /\
        forall C : nat -> Prop, (forall u v, In (u, v) E -> C v -> C u) -> ~ C s -> forall x, In x more -> ~ C x
    end.
Proof.
  induction ends as [|e ends IH]; intros seen HE.
  - exists None, []. split; [cbn; now rewrite app_nil_r|]. split; [intros e []|intros C _ _ x []].
  - cbn [try_ends]. destruct (find_loops_from E s e seen (HE e (or_introl eq_refl))) as (m & -> & Hm). cbn [bind].
    destruct (IH (seen ++ m)) as (r & m' & Er & Hr); [intros; apply HE; now right|].
    destruct (finds_dec E L s e) as [Fi|Nf].
    + exists (Some (loop_from E s e)), m. destruct Fi as (N & Le). destruct (loop_from E s e) as [|x l] eqn:Q; [congruence|]. cbn [as_loop].
      rewrite Le, Nat.eqb_refl. split; [reflexivity|]. exists e. split; [now left|]. rewrite Q. split; [split; congruence|reflexivity].
    + exists r, (m ++ m'). split.
      * rewrite app_assoc, <- Er. unfold finds in Nf. destruct (loop_from E s e) as [|x l]; cbn [as_loop]; [reflexivity|].
        destruct (Nat.eqb_spec (length (x :: l)) L) as [Q|Q]; [|reflexivity]. exfalso. apply Nf. split; [discriminate|exact Q].
      * destruct r as [l|].
        -- destruct Hr as (e' & I & Hf). exists e'. split; [now right|exact Hf].
        -- destruct Hr as (H1 & H2). split; [intros e' [<-|I]; auto|]. intros C HC Ns x Hx. apply in_app_or in Hx as [Hx|Hx]; [|eauto].
           apply (Hm C HC); auto. intros Ce. apply Ns. apply (HC s e); auto. apply HE. now left.
Qed.

(** the entries of the graph *)
Lemma entries_edges E s ends : In (s, ends) (build_graph E) -> ends = succs E s /\ ends <> [].
Proof.
  intros H. assert (L : lookup (build_graph E) s = Some ends).
  { pose proof (keys_nodup E) as Nd. revert H Nd. generalize (build_graph E). induction g as [|(k, vs) g IH]; intros H Nd; [destruct H|].
    cbn [keys map fst] in Nd. inversion_clear Nd as [|? ? N1 N2]. cbn [lookup]. destruct H as [[= -> ->]|H]; [now rewrite Nat.eqb_refl|].
    destruct (Nat.eqb_spec k s) as [->|_]; [|apply IH; auto]. exfalso. apply N1. apply in_map_iff. exists (s, ends). auto. }
  rewrite lookup_build in L. destruct (succs E s); cbn in L; [discriminate|]. injection L as <-. split; [reflexivity|discriminate].
Qed.

Lemma try_starts_spec E L : forall entries seen, (forall s ends, In (s, ends) entries -> ends = succs E s) ->
  exists r, try_starts (length E + 1) (build_graph E) L entries seen = Some r /\
    match r with
    | Some l => exists s e, In (s, e) E /\ finds E L s e /\ l = loop_from E s e
    | None => forall (C : nat -> Prop) s, (forall x, C x \/ ~ C x) -> (forall u v, In (u, v) E -> C v -> C u) -> (forall x, In x seen -> ~ C x) ->
        C s -> In s (map fst entries) -> exists s', C s' /\ In s' (map fst entries) /\ forall e, In (s', e) E -> ~ finds E L s' e
    end.
Proof.
  induction entries as [|(s, ends) entries IH]; intros seen HE.
  - exists None. split; [reflexivity|]. intros C s _ _ _ _ [].
  - cbn [try_starts]. assert (He : ends = succs E s) by (apply HE; now left).
    destruct (existsb (Nat.eqb s) seen) eqn:Q.
    + apply existsb_in in Q. destruct (IH seen) as (r & Er & Hr); [intros; apply HE; now right|]. exists r. split; [exact Er|].
      destruct r as [l|]; [exact Hr|]. intros C x Dc HC Hs Cx [<-|I]; [exfalso; exact (Hs _ Q Cx)|].
      destruct (Hr C x Dc HC Hs Cx I) as (s' & H1 & H2 & H3). exists s'. split; [exact H1|]. split; [now right|exact H3].
    + destruct (try_ends_spec E L s ends seen) as (r & m & -> & Hr); [intros e I; rewrite He in I; now apply in_succs|]. cbn [bind].
      destruct r as [l|].
      * exists (Some l). split; [reflexivity|]. destruct Hr as (e & I & Hf). exists s, e. split; [rewrite He in I; now apply in_succs|exact Hf].
      * destruct Hr as (H1 & H2). destruct (IH (seen ++ m)) as (r & Er & Hr); [intros; apply HE; now right|]. exists r. split; [exact Er|].
        destruct r as [l|]; [exact Hr|]. intros C x Dc HC Hs Cx Ix.
        assert (D : C s \/ ~ C s -> exists s', C s' /\ In s' (map fst ((s, ends) :: entries)) /\ forall e, In (s', e) E -> ~ finds E L s' e).
        { intros [Cs|Ns].
          - exists s. split; [exact Cs|]. split; [now left|]. intros e I. apply H1. rewrite He. now apply in_succs.
          - destruct Ix as [<-|Ix]; [contradiction|]. destruct (Hr C x Dc HC) as (s' & A1 & A2 & A3); auto.
            + intros z Hz. apply in_app_or in Hz as [Hz|Hz]; [auto|]. apply (H2 C HC Ns z Hz).
            + exists s'. split; [exact A1|]. split; [now right|exact A3]. }
        exact (D (Dc s)).
Qed.

(** ** Cycles when at most one edge enters every node *)

Definition one_in (E : list (nat * nat)) : Prop := forall u u' v, In (u, v) E -> In (u', v) E -> u = u'.

(** a cycle can be written to end at any of its nodes *)
Lemma cycle_ending E m s : cycle E m -> In s m ->
  exists e t, rotation m (e :: t) /\ last (e :: t) 0 = s /\ In (s, e) E /\ cycle E (e :: t).
Proof.
  intros Hm I. apply in_split in I as (a & b & ->).
  assert (R : rotation (a ++ s :: b) (b ++ a ++ [s])) by (exists (a ++ [s]), b; rewrite <- app_assoc; auto).
  pose proof (rotation_cycle _ _ _ R Hm) as Hr. pose proof Hr as (_ & e & t & Et & P). exists e, t. rewrite <- Et.
  split; [exact R|]. split; [now rewrite app_assoc, last_last|]. split; [|exact Hr].
  apply P. exists (b ++ a), []. rewrite <- !app_assoc. reflexivity.
Qed.
Lemma cycle_closed E m : one_in E -> cycle E m -> forall u v, In (u, v) E -> In v m -> In u m.
Proof.
  intros H1 Hm u v He Hv. apply in_split in Hv as (a & b & ->).
  assert (R : rotation (a ++ v :: b) (v :: b ++ a)) by (exists a, (v :: b); auto).
  pose proof (rotation_cycle _ _ _ R Hm) as (_ & x & l & Ex & P). injection Ex as <- <-.
  assert (Q : In (last (v :: b ++ a) 0, v) E).
  { apply P. exists (removelast (v :: b ++ a)), []. rewrite (last_snoc (v :: b ++ a) 0) at 1 by discriminate. now rewrite <- app_assoc. }
  rewrite (H1 _ _ _ He Q). eapply Permutation_in; [symmetry; apply rotation_perm, R|]. apply last_in. discriminate.
Qed.
Lemma path_back E (C : nat -> Prop) : (forall u v, In (u, v) E -> C v -> C u) ->
  forall l e, path_in E (e :: l) -> C (last (e :: l) 0) -> forall x, In x (e :: l) -> C x.
Proof.
  intros HC. induction l as [|y l IH]; intros e P Cl x Hx; [destruct Hx as [<-|[]]; exact Cl|].
  apply path_in_cons in P as (He & P). specialize (IH y P Cl). destruct Hx as [<-|Hx]; [|now apply IH].
  apply (HC e y He), IH. now left.
Qed.
Lemma cycles_same E m s e t : one_in E -> cycle E m -> In s m -> cycle E (e :: t) -> last (e :: t) 0 = s ->
  length (e :: t) = length m.
Proof.
  intros H1 Hm Hs Ht L.
  assert (St : In s (e :: t)) by (rewrite <- L; apply last_in; discriminate).
  destruct (cycle_ending E m s Hm Hs) as (e' & t' & R & L' & _ & Ht').
  assert (I1 : incl (e :: t) m).
  { intros x. apply (path_back E (fun x => In x m) (cycle_closed E m H1 Hm) t e (cycle_path _ _ Ht)). now rewrite L. }
  assert (I2 : incl (e' :: t') (e :: t)).
  { intros x. apply (path_back E (fun x => In x (e :: t)) (cycle_closed E _ H1 Ht) t' e' (cycle_path _ _ Ht')). now rewrite L'. }
  pose proof (Permutation_length (rotation_perm _ _ R)) as Q.
  pose proof (NoDup_incl_length (proj1 Ht) I1). pose proof (NoDup_incl_length (proj1 Ht') I2). lia.
Qed.

Lemma get_loops_spec E L : exists r, get_loops E L = Some r /\
  match r with
  | Some l => exists s e, In (s, e) E /\ finds E L s e /\ l = loop_from E s e
  | None => one_in E -> forall m, cycle E m -> length m <> L
  end.
Proof.
  destruct (try_starts_spec E L (build_graph E) []) as (r & Er & Hr); [intros s ends I; exact (proj1 (entries_edges E s ends I))|].
  exists r. split; [exact Er|]. destruct r as [l|]; [exact Hr|]. intros H1 m Hm Lm.
  pose proof (cycle_nonempty _ _ Hm) as Nm. destruct m as [|s m']; [congruence|].
  destruct (cycle_ending E _ s Hm (or_introl eq_refl)) as (e & t & _ & _ & He & _).
  destruct (Hr (fun x => In x (s :: m')) s) as (s' & Cs & Is & Hn).
  - intros x. destruct (in_dec Nat.eq_dec x (s :: m')); auto.
  - exact (cycle_closed E _ H1 Hm).
  - intros x [].
  - now left.
  - apply (in_keys_build E s). intros Q. apply in_succs in He. rewrite Q in He. destruct He.
  - destruct (cycle_ending E _ s' Hm Cs) as (e' & t' & _ & L' & He' & Hc').
    pose proof (loop_from_complete E s' e' t' He' (cycle_path _ _ Hc') L') as N.
    destruct (loop_from_sound E s' e' He' N) as (t2 & E2 & L2 & C2).
    apply (Hn e' He'). split; [exact N|]. rewrite E2. rewrite (cycles_same E _ s' e' t2 H1 Hm Cs C2 L2). exact Lm.
Qed.
