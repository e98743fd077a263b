(** * Properties C08 and C09: K-SAT messages. *)
From Verif Require Import Num Arr Spec MinSum M_Ksat P_Ksat.
From Verif Require ArrFacts.
Local Open Scope nat_scope.

(** C08.  For [nc] clauses of [k] distinct variables each, one clause step succeeds; the entry
    of a clause and its [j]-th variable is the min-sum message of "at least one literal of the
    clause is true"; entries of variables that are not in the clause are 0. *)
Theorem C08_clause_messages_exact :
  forall (nc nv k : nat) (M : list (list Qc)) (out : list (list num))
         (conns : list (list nat)) (types : list (list Z)),
    shape nc nv M -> shape nc nv out -> length conns = nc -> length types = nc ->
    (forall c conx tys, nth_error conns c = Some conx -> nth_error types c = Some tys ->
       clause_wf nv k conx tys) ->
    exists out',
      ksat_update nc k (inj M) out conns types = Some out' /\ shape nc nv out' /\
      forall c conx tys, nth_error conns c = Some conx -> nth_error types c = Some tys ->
        (forall j x, nth_error conx j = Some x ->
           exists v, get2 out' c x = Some v /\
             minsum_message (clause_ok (signs tys)) (map (fun x => qat M c x) conx) j v) /\
        (forall x, x < nv -> ~ In x conx -> get2 out' c x = Some n0).
Proof.
  intros nc nv k M out conns types HM HO LC LT Hwf.
  destruct (ksat_update_ok nc nv k M out conns types HM HO LC LT Hwf) as (o & E & S & H).
  exists o; split; [auto|split; auto]. intros c conx tys Hc Ht.
  destruct (H c conx tys Hc Ht) as [H1 H2]. destruct (Hwf c conx tys Hc Ht) as (L1 & L2 & _).
  split; auto. intros j x Hj.
  destruct (ArrFacts.get_lt (signs tys) j) as [s Hs].
  { unfold signs. rewrite map_length, L2, <- L1. apply nth_error_Some; congruence. }
  eexists; split; [apply (H1 j x s Hj Hs)|].
  apply clause_message; auto. unfold signs. rewrite !map_length. congruence.
Qed.

Example C08_example :
  let M := map (map zq) [[3;-5;2;0];[0;1;4;-6]]%Z in
  let conns := [[0;1;2];[3;1;2]] in
  let types := [[1;-1;1];[-1;1;-1]]%Z in
  shape 2 4 M /\
  (forall c conx tys, nth_error conns c = Some conx -> nth_error types c = Some tys ->
     clause_wf 4 3 conx tys) /\
  option_map (map (map view)) (ksat_update 2 3 (inj M) (repeat (repeat n1 4) 2) conns types)
  = Some (map (map (fun z => VFin (inject_Z z))) [[-2;2;-3;0];[0;0;1;0]])%Z.
Proof.
  split; [split; [reflexivity|repeat constructor]|]. split.
  - intros [|[|[|c]]] conx tys Hc Ht; try discriminate;
      cbn in Hc, Ht; injection Hc as <-; injection Ht as <-;
      (split; [reflexivity|]); (split; [reflexivity|]);
      (split; [repeat constructor; cbn; intuition lia|]);
      (split; [repeat constructor; lia|repeat (apply Forall_cons || apply Forall_nil); unfold pm1; auto]).
  - vm_compute. reflexivity.
Qed.

(** C09.  One variable step succeeds; the message of a used variable to each of its clauses is
    its metric plus the messages of all its other clauses; every other entry is 0. *)
Theorem C09_variable_messages_exclude_target :
  forall (nc nv : nat) (M : list (list Qc)) (metrics : list Qc) (used : list nat)
         (clauses_of : list (list nat)) (out : list (list num)),
    shape nc nv M -> length metrics = nv -> length clauses_of = nv -> shape nc nv out ->
    Forall (fun x => x < nv) used ->
    (forall x l, nth_error clauses_of x = Some l -> NoDup l /\ Forall (fun c => c < nc) l) ->
    exists out',
      variable_update nv (inj M) out used (map Fin metrics) clauses_of = Some out' /\
      shape nc nv out' /\
      (forall x l c, In x used -> nth_error clauses_of x = Some l -> In c l ->
         get2 out' c x =
           Some (Fin (nth x metrics 0 + qsum (map (fun c => qat M c x) (others c l)))%Qc)) /\
      (forall c x, c < nc -> x < nv ->
         ~ (In x used /\ exists l, nth_error clauses_of x = Some l /\ In c l) ->
         get2 out' c x = Some n0).
Proof.
  intros nc nv M metrics used vc out HM Hm Hv HO Hu Hc.
  destruct (variable_update_ok nc nv M metrics used vc HM Hm Hv Hu) with (out := out)
    as (o & E & S & H1 & H2); auto.
  { intros v l Hl. apply (Hc v l Hl). }
  exists o. repeat (split; [assumption|]). split; auto.
  intros x l c Hx Hl Hcl. apply In_nth_error in Hcl as [i Hi].
  rewrite (H1 x l i c Hx Hl Hi). rewrite (remove_others l i c); auto. apply (Hc x l Hl).
Qed.

Example C09_example :
  let M := map (map zq) [[3;-5;2];[7;1;4];[-1;0;8]]%Z in
  let clauses_of := [[0;2];[];[0;1;2]] in
  shape 3 3 M /\ Forall (fun x => x < 3) [0;2] /\
  (forall x l, nth_error clauses_of x = Some l -> NoDup l /\ Forall (fun c => c < 3) l) /\
  option_map (map (map view))
    (variable_update 3 (inj M) (repeat (repeat n1 3) 3) [0;2] (map zn [10;20;30]%Z) clauses_of)
  = Some (map (map (fun z => VFin (inject_Z z))) [[9;0;42];[0;0;40];[13;0;36]])%Z.
Proof.
  split; [split; [reflexivity|repeat constructor]|]. split; [repeat constructor; lia|]. split.
  - intros [|[|[|[|x]]]] l Hl; try discriminate; cbn in Hl; injection Hl as <-;
      (split; [repeat constructor; cbn; intuition lia|repeat constructor; lia]).
  - vm_compute. reflexivity.
Qed.

Print Assumptions C08_clause_messages_exact.
Print Assumptions C09_variable_messages_exclude_target.
