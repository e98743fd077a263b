(** * Properties C63 and C64: formulas as DIMACS files, and the evaluation of the solver's model. *)
From Coq Require Import Permutation Ascii String ZArith.
From Verif Require Import Num NumFacts Arr ArrFacts Spec M_Tsp_Run M_Tsp_Post M_Ksat_Py P_Ksat P_Ksat_Py P_Ksat_Gen M_InOut M_Runs P_Runs T_Ksat_Py T_PyRef_Run T_Ksat_Tree.
From Verif Require Import SpecCnf M_Cnf P_Cnf.
Local Open Scope nat_scope.

(** all clauses have [k] literals of variables below [nv] *)
Definition uniform (nv k : nat) (clauses : list (list (nat * Z))) : Prop :=
  Forall (fun cl => length cl = k /\ Forall (fun l => fst l < nv) cl) clauses.

(** What a reader of the file has to return. *)
Definition read_as (nv nc k : nat) (clauses : list (list (nat * Z))) (r : cnf_result) : Prop :=
  let q := z_lists r in
  z_nv r = Z.of_nat nv /\ z_nc r = Z.of_nat nc /\ z_k r = k /\
  q_conx q = map (map (fun l => Z.of_nat (fst l))) clauses /\
  q_types q = map (map snd) clauses /\
  length (q_vconx q) = nv /\ length (q_vtypes q) = nv /\
  (forall v, v < nv ->
     nth v (q_vconx q) [] = map (fun o => Z.of_nat (fst o)) (occurrences v clauses) /\
     nth v (q_vtypes q) [] = map snd (occurrences v clauses)) /\
  NoDup (q_used q) /\
  (forall z, In z (q_used q) <-> exists cl l, In cl clauses /\ In l cl /\ z = Z.of_nat (fst l)) /\
  q_solver q = map (map (fun l => snd l * (Z.of_nat (fst l) + 1))%Z) clauses.

Lemma NoDup_set ord (l : list Z) : (forall l, Permutation l (ord l)) ->
  NoDup (ord (nodup Z.eq_dec l)) /\ forall z, In z (ord (nodup Z.eq_dec l)) <-> In z l.
Proof.
  intros P. split.
  - eapply Permutation_NoDup; [apply P|]. apply NoDup_nodup.
  - intros z. rewrite <- (nodup_In Z.eq_dec l z). split; apply Permutation_in; [apply Permutation_sym, P|apply P].
Qed.

(** C63.  A file with comments, a header, one line per clause (all of the same size, at least 1) and
    the usual trailing lines is read as the formula it describes: both views, the used variables,
    and the clauses given to the solver. *)
Theorem C63_read :
  forall (ord : list Z -> list Z) (nv nc k : nat) (clauses : list (list (nat * Z))) (s : list ascii),
    (forall l, Permutation l (ord l)) -> 1 <= k -> clauses <> [] -> uniform nv k clauses ->
    dimacs nv nc clauses s ->
    exists r, read_cnf ord s = Some r /\ read_as nv nc k clauses r.
Proof.
  intros ord nv nc k cls s P Hk Ne U D. eexists. split; [apply read_ok; eauto|].
  unfold read_as. cbn [z_nv z_nc z_k z_lists q_conx q_types q_vconx q_vtypes q_used q_solver].
  split; [reflexivity|]. split; [reflexivity|]. split; [reflexivity|]. split; [reflexivity|]. split; [reflexivity|].
  rewrite !map_length, !seq_length. split; [reflexivity|]. split; [reflexivity|]. split; [|split; [apply NoDup_set, P|split; [|reflexivity]]].
  - intros v Hv. rewrite (nth_error_nth _ _ _ (nth_view (fun v => occ_v v cls) nv v Hv)).
    rewrite (nth_error_nth _ _ _ (nth_view (fun v => occ_t v cls) nv v Hv)). split; reflexivity.
  - intros z. rewrite (proj2 (NoDup_set ord _ P)), in_concat. split.
    + intros (x & Ix & Iz). apply in_map_iff in Ix as (cl & <- & Icl). apply in_map_iff in Iz as (l & <- & Il). exists cl, l. auto.
    + intros (cl & l & Icl & Il & ->). exists (map zv cl). split; [apply in_map, Icl|]. apply (in_map zv), Il.
Qed.

(** Clauses of different sizes are rejected (ValueError). *)
Theorem C63_unequal :
  forall (ord : list Z -> list Z) (nv nc : nat) (clauses : list (list (nat * Z))) (s : list ascii),
    Forall (fun cl => cl <> [] /\ Forall (fun l => fst l < nv) cl) clauses ->
    (exists c d, In c clauses /\ In d clauses /\ length c <> length d) ->
    dimacs nv nc clauses s -> read_cnf ord s = None.
Proof.
  intros ord nv nc cls s B (c & d & Ic & Id & N) D. destruct cls as [|first cls]; [destruct Ic|].
  assert (X : exists good bad rest, first :: cls = good ++ bad :: rest /\ good <> [] /\ length bad <> length first /\
    Forall (fun cl => length cl = length first) good).
  { assert (Y : exists e, In e (first :: cls) /\ length e <> length first).
    { destruct (Nat.eq_dec (length c) (length first)); [|eauto]. exists d. split; [auto|]. congruence. }
    destruct Y as (e & Ie & Ne). destruct Ie as [->|Ie]; [congruence|]. clear - Ie Ne.
    assert (G : forall l, In e l -> exists good bad rest, l = good ++ bad :: rest /\ length bad <> length first /\
      Forall (fun cl => length cl = length first) good).
    { induction l as [|x l IH]; [intros []|]. intros I. destruct (Nat.eq_dec (length x) (length first)) as [E|E].
      - destruct I as [->|I]; [congruence|]. destruct (IH I) as (g & b & r & -> & H1 & H2). exists (x :: g), b, r. auto.
      - exists [], x, l. auto. }
    destruct (G cls Ie) as (g & b & r & -> & H1 & H2). exists (first :: g), b, r. repeat split; auto. discriminate. }
  destruct X as (good & bad & rest & E & Ng & Nb & Lg). rewrite E in B, D. apply Forall_app in B as (Bg & Bb).
  inversion_clear Bb as [|? ? (N1 & B1) _].
  assert (Hk : 1 <= length first).
  { destruct good as [|g good]; [congruence|]. inversion Bg as [|? ? (N2 & _) _]. subst. injection E as <- _. destruct first; cbn; [congruence|lia]. }
  eapply (read_bad ord nv nc (length first) good bad rest); eauto.
  apply Forall_forall. intros cl I. rewrite Forall_forall in Lg, Bg. split; [auto|]. apply Bg, I.
Qed.

(** Writing a formula and reading it back. *)
Theorem C63_roundtrip :
  forall (ord : list Z -> list Z) (nv nc k : nat) (conx : list (list nat)) (types : list (list Z)),
    (forall l, Permutation l (ord l)) -> 1 <= k -> 1 <= nc -> shape nc k conx -> shape nc k types ->
    Forall (Forall (fun v => v < nv)) conx -> Forall (Forall (fun t => t = 1%Z \/ t = (-1)%Z)) types ->
    exists s r, create_cnf conx types nv nc = Some s /\ read_cnf ord s = Some r /\
      read_as nv nc k (map (fun p => combine (fst p) (snd p)) (combine conx types)) r /\
      q_conx (z_lists r) = map (map Z.of_nat) conx /\ q_types (z_lists r) = types.
Proof.
  intros ord nv nc k conx types P Hk Hn (Lc & Fc) (Lt & Ft) Bc Bt.
  assert (F : Forall (fun p => length (fst p) = k /\ length (snd p) = k /\ Forall (fun t => t = 1%Z \/ t = (-1)%Z) (snd p)) (combine conx types)).
  { apply Forall_forall. intros (cx, ty) I. rewrite Forall_forall in Fc, Ft, Bt. cbn [fst snd].
    pose proof (in_combine_l _ _ _ _ I). pose proof (in_combine_r _ _ _ _ I). auto. }
  destruct (create_dimacs conx types nv nc k Hk ltac:(congruence) F) as (s & Es & D).
  assert (U : uniform nv k (map (fun p => combine (fst p) (snd p)) (combine conx types))).
  { apply Forall_map, Forall_forall. intros (cx, ty) I. rewrite Forall_forall in F. destruct (F _ I) as (A & B & _). cbn [fst snd] in *.
    split; [rewrite combine_length; lia|]. apply Forall_forall. intros (v, t) Iv. apply in_combine_l in Iv. cbn [fst].
    rewrite Forall_forall in Bc. specialize (Bc cx (in_combine_l _ _ _ _ I)). rewrite Forall_forall in Bc. auto. }
  destruct (C63_read ord nv nc k (map (fun p => combine (fst p) (snd p)) (combine conx types)) s P Hk) as (r & Er & Rd); auto.
  { intros E. apply (f_equal (@length _)) in E. rewrite map_length, combine_length in E. cbn in E. lia. }
  exists s, r. split; [exact Es|]. split; [exact Er|]. split; [exact Rd|].
  destruct Rd as (_ & _ & _ & -> & -> & _). rewrite !map_map.
  assert (G : forall (conx : list (list nat)) (types : list (list Z)), length conx = length types ->
    Forall (fun p => length (fst p) = k /\ length (snd p) = k /\ Forall (fun t => t = 1%Z \/ t = (-1)%Z) (snd p)) (combine conx types) ->
    map (fun x => map (fun l => Z.of_nat (fst l)) (combine (fst x) (snd x))) (combine conx types) = map (map Z.of_nat) conx /\
    map (fun x => map snd (combine (fst x) (snd x))) (combine conx types) = types).
  { clear. assert (C : forall (cx : list nat) (ty : list Z), length cx = length ty ->
      map (fun l => Z.of_nat (fst l)) (combine cx ty) = map Z.of_nat cx /\ map snd (combine cx ty) = ty).
    { induction cx as [|v cx IH]; intros [|t ty] L; try discriminate; [auto|]. cbn in L |- *. destruct (IH ty) as (-> & ->); [lia|]. auto. }
    induction conx as [|cx conx IH]; intros [|ty types] L F; try discriminate; [auto|]. cbn [combine map fst snd] in F |- *.
    inversion_clear F as [|? ? (A & B & _) F']. cbn [fst snd] in A, B. destruct (C cx ty) as (-> & ->); [congruence|].
    destruct (IH types) as (-> & ->); auto. }
  apply G; auto. congruence.
Qed.

(** A generated formula: the file gives back its clause view, its variable view up to the order
    inside the rows, and the same used variables. *)
Theorem C63_formula :
  forall (nv k : nat) (sol : list bool) (ord : list nat -> list nat) (ord' : list Z -> list Z) (draws : list draw) (f : formula),
    2 <= k -> length sol = nv -> Forall (valid_draw nv k) draws ->
    (forall l, Permutation l (ord l)) -> (forall l, Permutation l (ord' l)) ->
    create_formula nv k sol ord draws = Some f -> 1 <= y_nc f ->
    exists s r, create_cnf (y_conx f) (y_types f) nv (y_nc f) = Some s /\ read_cnf ord' s = Some r /\
      z_nv r = Z.of_nat nv /\ z_nc r = Z.of_nat (y_nc f) /\ z_k r = k /\
      q_conx (z_lists r) = map (map Z.of_nat) (y_conx f) /\ q_types (z_lists r) = y_types f /\
      (forall v c t, v < nv ->
         (exists j, nth_error (nth v (q_vconx (z_lists r)) []) j = Some (Z.of_nat c) /\
                    nth_error (nth v (q_vtypes (z_lists r)) []) j = Some t) <->
         (exists j, get2 (y_vconx f) v j = Some c /\ get2 (y_vtypes f) v j = Some t)).
Proof.
  intros nv k sol ord ord' draws f Hk Ls Hd P P' Ef Hn.
  destruct (create_formula_ok nv k sol ord draws) as (f' & Ef' & W & Q & N & _); auto; [lia|].
  assert (f' = f) by congruence. subst f'.
  destruct (consistent_facts nv k sol f Hk W Q) as (Wf & S1 & S2 & V1 & V2 & V3 & V4).
  assert (Row : forall c, c < y_nc f -> clause_wf nv k (nth c (y_conx f) []) (nth c (y_types f) [])).
  { intros c Hc. apply (Wf c); apply nth_error_nth'; [rewrite (c_conx _ _ W)|rewrite (c_types _ _ W)]; auto. }
  destruct (C63_roundtrip ord' nv (y_nc f) k (y_conx f) (y_types f)) as (s & r & Es & Er & Rd & R1 & R2); auto; [lia| | |].
  { apply Forall_forall. intros cx I. apply In_nth_error in I as (c & Ec). assert (Hc : c < y_nc f) by (rewrite <- (c_conx _ _ W); apply nth_error_Some; congruence).
    destruct (Row c Hc) as (_ & _ & _ & B & _). rewrite (nth_error_nth _ _ _ Ec) in B. exact B. }
  { apply Forall_forall. intros ty I. apply In_nth_error in I as (c & Ec). assert (Hc : c < y_nc f) by (rewrite <- (c_types _ _ W); apply nth_error_Some; congruence).
    destruct (Row c Hc) as (_ & _ & _ & _ & B). rewrite (nth_error_nth _ _ _ Ec) in B. exact B. }
  exists s, r. destruct Rd as (Z1 & Z2 & Z3 & _ & _ & _ & _ & Vv & _).
  split; [exact Es|]. split; [exact Er|]. split; [exact Z1|]. split; [exact Z2|]. split; [exact Z3|]. split; [exact R1|]. split; [exact R2|].
  intros v c t Hv. destruct (Vv v Hv) as (-> & ->).
  change (exists j, get2 (y_vconx f) v j = Some c /\ get2 (y_vtypes f) v j = Some t) with (in_variable f c v t).
  rewrite <- (c_same _ _ W).
  set (cls := map (fun p => combine (fst p) (snd p)) (combine (y_conx f) (y_types f))).
  transitivity (In (c, t) (occurrences v cls)).
  { split.
    - intros (j & J1 & J2). rewrite nth_error_map in J1, J2. destruct (nth_error (occurrences v cls) j) as [(c', t')|] eqn:E; [|discriminate].
      cbn in J1, J2. injection J1 as J1. injection J2 as J2. apply nth_error_In in E. assert (c' = c) by lia. subst. exact E.
    - intros I. apply In_nth_error in I as (j & E). exists j. rewrite !nth_error_map, E. auto. }
  rewrite in_occurrences.
  assert (Nc : forall c, nth_error cls c = match nth_error (y_conx f) c, nth_error (y_types f) c with
    | Some cx, Some ty => Some (combine cx ty) | _, _ => None end).
  { intros c0. unfold cls. rewrite nth_error_map. clear.
    revert c0. generalize (y_types f). induction (y_conx f) as [|x l IH]; intros [|y l'] [|c0]; cbn; try reflexivity.
    - destruct (nth_error l c0); reflexivity.
    - apply IH. }
  rewrite Nc. unfold in_clause, get2, get. split.
  - intros (cl & E & I). destruct (nth_error (y_conx f) c) as [cx|]; [|discriminate].
    destruct (nth_error (y_types f) c) as [ty|]; [|discriminate]. injection E as <-. cbn [bind].
    clear - I. revert ty I. induction cx as [|x cx IH]; intros [|y ty] I; try destruct I as [I|I]; try contradiction.
    + injection I as -> ->. exists 0. auto.
    + destruct (IH ty I) as (j & J). exists (S j). exact J.
  - intros (j & J1 & J2). destruct (nth_error (y_conx f) c) as [cx|]; [|discriminate].
    destruct (nth_error (y_types f) c) as [ty|]; [|discriminate]. cbn [bind] in J1, J2. exists (combine cx ty). split; [reflexivity|].
    clear - J1 J2. revert cx ty J1 J2. induction j as [|j IH]; intros [|x cx] [|y ty] J1 J2; try discriminate; cbn in *.
    + left. congruence.
    + right. apply IH; auto.
Qed.

(** C64.  The evaluation after the solver: for a file as above with the number of clauses in the
    header, and any model, the clauses reported as unsatisfied are those not satisfied by the model,
    and the formula is reported as satisfied exactly if the model satisfies every clause. *)
Theorem C64_evaluation :
  forall (ord : list Z -> list Z) (nv nc k : nat) (clauses : list (list (nat * Z))) (s : list ascii) (model : list Z),
    (forall l, Permutation l (ord l)) -> 1 <= k -> clauses <> [] -> uniform nv k clauses -> length clauses = nc ->
    dimacs nv nc clauses s ->
    exists r u b, read_cnf ord s = Some r /\ model_unsatisfied r model = Some u /\ model_satisfied r model = Some b /\
      (forall c, In c u <-> c < nc /\ ~ model_of [nth c clauses []] model) /\
      (b = true <-> model_of clauses model).
Proof.
  intros ord nv nc k cls s model P Hk Ne U Ln D.
  destruct (model_unsatisfied_ok nv nc cls {| z_nv := Z.of_nat nv; z_nc := Z.of_nat nc; z_k := k;
    z_lists := {| q_conx := map (map zv) cls; q_types := map (map snd) cls;
      q_used := ord (nodup Z.eq_dec (concat (map (map zv) cls)));
      q_vconx := map (fun v => occ_v v cls) (seq 0 nv); q_vtypes := map (fun v => occ_t v cls) (seq 0 nv);
      q_k := Some k; q_solver := map (map number) cls |} |} model) as (u & Eu & Iu).
  { split; reflexivity. } { reflexivity. }
  { eapply Forall_impl; [|exact U]. intros cl (_ & B). exact B. }
  eexists. exists u, (match u with [] => true | _ => false end).
  split; [apply read_ok; eauto|]. split; [exact Eu|]. split; [unfold model_satisfied; rewrite Eu; reflexivity|].
  assert (Iu' : forall c, In c u <-> c < nc /\ ~ model_of [nth c cls []] model).
  { intros c. rewrite Iu. split; intros (Hc & X); (split; [exact Hc|]); intros Y; apply X.
    - exists (nth c cls []). split; [apply nth_error_nth'; lia|]. apply (Y (nth c cls [])). left. reflexivity.
    - destruct Y as (cl & E & T). intros cl' [<-|[]]. rewrite (nth_error_nth _ _ _ E). exact T. }
  split; [exact Iu'|]. split.
  - intros E cl I. apply In_nth_error in I as (c & Ec). destruct u as [|]; [|discriminate].
    assert (Hc : c < nc) by (rewrite <- Ln; apply nth_error_Some; congruence).
    assert (Dec : clause_true_in model cl \/ ~ clause_true_in model cl).
    { clear. induction cl as [|(v, t) cl IH].
      - right. intros (v & t & x & [] & _).
      - destruct IH as [(v' & t' & x & I & H)|H]; [left; exists v', t', x; split; [right; auto|auto]|].
        destruct (nth_error model v) as [x|] eqn:Ex.
        + destruct (Z.eq_dec t 1) as [->|N1].
          * destruct (Z_lt_dec 0 x) as [L|L]; [left; exists v, 1%Z, x; split; [left; auto|auto]|].
            right. intros (v' & t' & x' & [I|I] & Ex' & Hx).
            -- injection I as <- <-. assert (x' = x) by congruence. subst. destruct Hx as [(_ & Hx)|(Hx & _)]; [auto|discriminate].
            -- apply H. exists v', t', x'. auto.
          * destruct (Z.eq_dec t (-1)) as [->|N2].
            -- destruct (Z_le_dec x 0) as [L|L]; [left; exists v, (-1)%Z, x; split; [left; auto|auto]|].
               right. intros (v' & t' & x' & [I|I] & Ex' & Hx).
               ++ injection I as <- <-. assert (x' = x) by congruence. subst. destruct Hx as [(Hx & _)|(_ & Hx)]; [discriminate|auto].
               ++ apply H. exists v', t', x'. auto.
            -- right. intros (v' & t' & x' & [I|I] & Ex' & Hx).
               ++ injection I as <- <-. destruct Hx as [(Hx & _)|(Hx & _)]; auto.
               ++ apply H. exists v', t', x'. auto.
        + right. intros (v' & t' & x' & [I|I] & Ex' & Hx).
          * injection I as <- <-. congruence.
          * apply H. exists v', t', x'. auto. }
    destruct Dec as [T|T]; [exact T|]. exfalso. apply (proj2 (Iu c)). split; [exact Hc|].
    intros (cl' & E' & T'). apply T. congruence.
  - intros M. destruct u as [|c u]; [reflexivity|]. exfalso. destruct (proj1 (Iu c) (or_introl eq_refl)) as (Hc & X). apply X.
    exists (nth c cls []). split; [apply nth_error_nth'; lia|]. apply M, nth_In. lia.
Qed.

(** ** Examples *)

Definition nl : string := String newline EmptyString.

(** A file in the style of the uf collection: a comment, clause lines with a leading blank, and
    trailing lines. *)
Definition uf_lines : list (list ascii) :=
  map (fun l => lit (l ++ nl)) ["c generated"; "p cnf 3  2"; " 1 -3 0"; "-2 3  0"; "%"; "0"; ""]%string.
Definition uf_clauses : list (list (nat * Z)) := [[(0, 1%Z); (2, (-1)%Z)]; [(1, (-1)%Z); (2, 1%Z)]].
Ltac full b := exists (lit b); split; [reflexivity|vm_compute; intuition discriminate].
Ltac digits1 := repeat split; [discriminate|repeat constructor; cbn; lia|vm_compute; intuition discriminate].
Ltac next b w s ws := apply (words_cons (lit b) (lit w) (lit s) ws);
  [repeat constructor; left; reflexivity|discriminate|repeat constructor; vm_compute; lia
  |vm_compute; intros c E; injection E as <-; auto|].
Ltac stop := apply words_nil; constructor; [right; right; left; reflexivity|constructor].

Lemma uf_file : dimacs 3 2 uf_clauses (concat uf_lines).
Proof.
  exists [lit ("c generated" ++ nl)], (lit ("p cnf 3  2" ++ nl)), [lit (" 1 -3 0" ++ nl); lit ("-2 3  0" ++ nl)],
    [lit ("%" ++ nl); lit ("0" ++ nl); lit nl].
  split; [reflexivity|]. split.
  { apply full_file. constructor; [full "c generated"%string|]. constructor; [full "p cnf 3  2"%string|]. constructor; [full " 1 -3 0"%string|].
    constructor; [full "-2 3  0"%string|]. constructor; [full "%"%string|]. constructor; [full "0"%string|].
    constructor; [full ""%string|constructor]. }
  split; [repeat constructor|]. split.
  { exists (lit (" 3  2" ++ nl)), (lit "3"), (lit "2"). split; [reflexivity|].
    split; [vm_compute; intros c E; injection E as <-; auto|]. split; [|split; digits1].
    next " "%string "3"%string ("  2" ++ nl)%string [lit "2"]. next "  "%string "2"%string nl (@nil (list ascii)). stop. }
  split.
  { constructor; [|constructor; [|constructor]].
    - split; [discriminate|]. exists [lit "1"; lit "-3"]. split.
      + next " "%string "1"%string (" -3 0" ++ nl)%string [lit "-3"; lit "0"].
        next " "%string "-3"%string (" 0" ++ nl)%string [lit "0"]. next " "%string "0"%string nl (@nil (list ascii)). stop.
      + constructor; [left; split; [reflexivity|digits1]|]. constructor; [|constructor].
        right. split; [reflexivity|]. exists (lit "3"). split; [reflexivity|digits1].
    - split; [discriminate|]. exists [lit "-2"; lit "3"]. split.
      + next ""%string "-2"%string (" 3  0" ++ nl)%string [lit "3"; lit "0"].
        next " "%string "3"%string ("  0" ++ nl)%string [lit "0"]. next "  "%string "0"%string nl (@nil (list ascii)). stop.
      + constructor; [|constructor; [left; split; [reflexivity|digits1]|constructor]].
        right. split; [reflexivity|]. exists (lit "2"). split; [reflexivity|digits1]. }
  constructor; [exists "%"%char; split; [reflexivity|cbn; auto]|].
  constructor; [exists "0"%char; split; [reflexivity|cbn; auto]|].
  constructor; [exists newline; split; [reflexivity|cbn; auto]|constructor].
Qed.

Example C63_read_example :
  read_cnf (fun l => l) (concat uf_lines) =
  Some {| z_nv := 3; z_nc := 2; z_k := 2%nat;
          z_lists := {| q_conx := [[0; 2]; [1; 2]]; q_types := [[1; -1]; [-1; 1]]; q_used := [0; 1; 2];
                        q_vconx := [[0]; [1]; [0; 1]]; q_vtypes := [[1]; [-1]; [-1; 1]]; q_k := Some 2%nat;
                        q_solver := [[1; -3]; [-2; 3]] |} |}%Z /\
  exists r, read_cnf (fun l => l) (concat uf_lines) = Some r /\ read_as 3 2 2 uf_clauses r.
Proof.
  split; [vm_compute; reflexivity|].
  apply C63_read; [intros; apply Permutation_refl|lia|discriminate|repeat constructor|apply uf_file].
Qed.

(** the last line may lack its line end *)
Definition short_text : list ascii := header_of 3 2 ++ line_of (nth 0 uf_clauses []) ++ lit "-2 3 0".
Lemma short_file : dimacs 3 2 uf_clauses short_text.
Proof.
  exists [], (header_of 3 2), [line_of (nth 0 uf_clauses []); lit "-2 3 0"], []. destruct (header_of_line 3 2) as (H1 & H2).
  assert (S1 : Forall sign_ok [(0, 1%Z); (2, (-1)%Z)]) by (constructor; [left; reflexivity|constructor; [right; reflexivity|constructor]]).
  split; [reflexivity|]. split; [|split; [constructor|split; [exact H1|split; [|constructor]]]].
  - cbn [app]. apply file_cons; [exact H2|]. apply file_cons; [apply line_of_full, S1|]. apply file_last; [discriminate|].
    vm_compute; intuition discriminate.
  - constructor; [apply line_of_clause; [discriminate|exact S1]|]. constructor; [|constructor].
    split; [discriminate|]. exists [lit "-2"; lit "3"]. split.
    + next ""%string "-2"%string (" 3 0")%string [lit "3"; lit "0"].
      next " "%string "3"%string (" 0")%string [lit "0"].
      apply (words_cons (lit " ") (lit "0") [] []); [repeat constructor|discriminate|repeat constructor; vm_compute; lia|discriminate|repeat constructor].
    + constructor; [|constructor; [left; split; [reflexivity|digits1]|constructor]].
      right. split; [reflexivity|]. exists (lit "2"). split; [reflexivity|digits1].
Qed.
Example C63_short_example :
  option_map (fun r => q_solver (z_lists r)) (read_cnf (fun l => l) short_text) = Some [[1; -3]; [-2; 3]]%Z /\
  exists r, read_cnf (fun l => l) short_text = Some r /\ read_as 3 2 2 uf_clauses r.
Proof.
  split; [vm_compute; reflexivity|].
  apply C63_read; [intros; apply Permutation_refl|lia|discriminate|repeat constructor|apply short_file].
Qed.

(** The models [1; -2; 3] and [1; 2; -3] of the solver: the first satisfies the file. *)
Example C64_example :
  match read_cnf (fun l => l) (concat uf_lines) with
  | Some r => (model_unsatisfied r [1; -2; 3], model_satisfied r [1; -2; 3], model_unsatisfied r [1; 2; -3], model_satisfied r [1; 2; -3])%Z
  | None => (None, None, None, None)
  end = (Some [], Some true, Some [1], Some false) /\
  exists r u b, read_cnf (fun l => l) (concat uf_lines) = Some r /\ model_unsatisfied r [1; 2; -3]%Z = Some u /\
    model_satisfied r [1; 2; -3]%Z = Some b /\ (forall c, In c u <-> c < 2 /\ ~ model_of [nth c uf_clauses []] [1; 2; -3]%Z) /\
    (b = true <-> model_of uf_clauses [1; 2; -3]%Z).
Proof.
  split; [vm_compute; reflexivity|].
  apply (C64_evaluation (fun l => l) 3 2 2); [intros; apply Permutation_refl|lia|discriminate|repeat constructor|reflexivity|apply uf_file].
Qed.

(** Two clauses of three literals, one with a two-digit variable. *)
Example C63_roundtrip_example :
  option_map string_of_list_ascii (create_cnf [[0; 9; 2]; [2; 1; 3]] [[1; -1; 1]; [-1; -1; 1]]%Z 10 2) =
    Some ("p cnf 10 2" ++ nl ++ "1 -10 3 0" ++ nl ++ "-3 -2 4 0" ++ nl)%string /\
  exists s r, create_cnf [[0; 9; 2]; [2; 1; 3]] [[1; -1; 1]; [-1; -1; 1]]%Z 10 2 = Some s /\
    read_cnf (fun l => l) s = Some r /\ q_conx (z_lists r) = [[0; 9; 2]; [2; 1; 3]]%Z /\
    q_types (z_lists r) = [[1; -1; 1]; [-1; -1; 1]]%Z /\ nth 2 (q_vconx (z_lists r)) [] = [0; 1]%Z.
Proof.
  split; [vm_compute; reflexivity|].
  destruct (C63_roundtrip (fun l => l) 10 2 3 [[0; 9; 2]; [2; 1; 3]] [[1; -1; 1]; [-1; -1; 1]]%Z) as (s & r & E1 & E2 & Rd & E3 & E4);
    try lia; try (split; [reflexivity|repeat constructor]).
  - intros. apply Permutation_refl.
  - repeat constructor; lia.
  - repeat (constructor; auto).
  - exists s, r. repeat split; auto. destruct Rd as (_ & _ & _ & _ & _ & _ & _ & Vv & _). apply (Vv 2). lia.
Qed.

(** The generated chain of implications of [C58_example]. *)
Example C63_formula_example :
  exists f s r, create_formula 4 2 [true; true; true; true] (fun l => l) chain_draws = Some f /\
    create_cnf (y_conx f) (y_types f) 4 (y_nc f) = Some s /\
    string_of_list_ascii s = ("p cnf 4 3" ++ nl ++ "2 -1 0" ++ nl ++ "3 -2 0" ++ nl ++ "4 -3 0" ++ nl)%string /\
    read_cnf (fun l => l) s = Some r /\ q_conx (z_lists r) = map (map Z.of_nat) (y_conx f) /\
    q_vconx (z_lists r) = [[0]; [0; 1]; [1; 2]; [2]]%Z.
Proof.
  destruct C58_example as (f & Ef & _ & _ & Hd & _).
  destruct (C63_formula 4 2 [true; true; true; true] (fun l => l) (fun l => l) chain_draws f) as (s & r & Es & Er & _ & _ & _ & Ec & _);
    auto; try (intros; apply Permutation_refl).
  { vm_compute in Ef. injection Ef as <-. cbn. lia. }
  exists f, s, r. split; [exact Ef|]. split; [exact Es|].
  assert (X : string_of_list_ascii s = ("p cnf 4 3" ++ nl ++ "2 -1 0" ++ nl ++ "3 -2 0" ++ nl ++ "4 -3 0" ++ nl)%string).
  { clear - Ef Es. vm_compute in Ef. injection Ef as <-. vm_compute in Es. injection Es as <-. vm_compute. reflexivity. }
  split; [exact X|]. split; [exact Er|]. split; [exact Ec|].
  apply (f_equal list_ascii_of_string) in X. rewrite list_ascii_of_string_of_list_ascii in X. subst s. clear - Er.
  vm_compute in Er. injection Er as <-. reflexivity.
Qed.

Example C63_unequal_example :
  read_cnf (fun l => l) (concat [header_of 3 2; line_of [(0, 1%Z); (1, 1%Z)]; line_of [(2, (-1)%Z)]]) = None.
Proof.
  apply (C63_unequal (fun l => l) 3 2 [[(0, 1%Z); (1, 1%Z)]; [(2, (-1)%Z)]]).
  - repeat constructor; discriminate.
  - exists [(0, 1%Z); (1, 1%Z)], [(2, (-1)%Z)]. cbn. repeat split; auto.
  - exists [], (header_of 3 2), [line_of [(0, 1%Z); (1, 1%Z)]; line_of [(2, (-1)%Z)]], []. rewrite app_nil_r.
    split; [reflexivity|]. destruct (header_of_line 3 2) as (H1 & H2).
    assert (S1 : Forall sign_ok [(0, 1%Z); (1, 1%Z)]) by (repeat (constructor; [left; reflexivity|]); constructor).
    assert (S2 : Forall sign_ok [(2, (-1)%Z)]) by (constructor; [right; reflexivity|constructor]).
    split; [|split; [constructor|split; [exact H1|split; [|constructor]]]].
    + apply full_file. cbn [app]. constructor; [exact H2|]. constructor; [apply line_of_full, S1|]. constructor; [apply line_of_full, S2|constructor].
    + constructor; [apply line_of_clause; [discriminate|exact S1]|]. constructor; [apply line_of_clause; [discriminate|exact S2]|constructor].
Qed.

(** ** Line ends *)

(** In the format a 0 ends a clause, not the end of a line.  Two clauses on one line are read as one clause whose middle 0
    is variable -1: it is recorded with the last variable. *)
Definition c63_free : Prop :=
  forall (ord : list Z -> list Z) (nv nc k : nat) (clauses : list (list (nat * Z))) (s : list ascii),
    (forall l, Permutation l (ord l)) -> 1 <= k -> clauses <> [] -> uniform nv k clauses -> length clauses = nc ->
    dimacs_free nv nc clauses s ->
    exists r, read_cnf ord s = Some r /\ read_as nv nc k clauses r.
Definition free_text : list ascii := header_of 3 2 ++ lit "1 -3 0 -2 1 0".
Definition free_clauses : list (list (nat * Z)) := [[(0, 1%Z); (2, (-1)%Z)]; [(1, (-1)%Z); (0, 1%Z)]].
Lemma free_file : dimacs_free 3 2 free_clauses free_text.
Proof.
  exists (header_of 3 2), (lit "1 -3 0 -2 1 0"), [[lit "1"; lit "-3"]; [lit "-2"; lit "1"]].
  destruct (header_of_line 3 2) as (H1 & H2). split; [reflexivity|]. split; [exact H1|]. split; [exact H2|]. split.
  - constructor; [|constructor; [|constructor]].
    + constructor; [left; split; [reflexivity|digits1]|]. constructor; [|constructor].
      right. split; [reflexivity|]. exists (lit "3"). split; [reflexivity|digits1].
    + constructor; [|constructor; [left; split; [reflexivity|digits1]|constructor]].
      right. split; [reflexivity|]. exists (lit "2"). split; [reflexivity|digits1].
  - cbn [flat_map app].
    next ""%string "1"%string (" -3 0 -2 1 0")%string [lit "-3"; lit "0"; lit "-2"; lit "1"; lit "0"].
    next " "%string "-3"%string (" 0 -2 1 0")%string [lit "0"; lit "-2"; lit "1"; lit "0"].
    next " "%string "0"%string (" -2 1 0")%string [lit "-2"; lit "1"; lit "0"].
    next " "%string "-2"%string (" 1 0")%string [lit "1"; lit "0"].
    next " "%string "1"%string (" 0")%string [lit "0"].
    apply (words_cons (lit " ") (lit "0") [] []); [repeat constructor|discriminate|repeat constructor; vm_compute; lia|discriminate|repeat constructor].
Qed.
Theorem C63_free_refuted : ~ c63_free /\
  option_map (fun r => (z_k r, q_conx (z_lists r), q_vconx (z_lists r), q_solver (z_lists r))) (read_cnf (fun l => l) free_text) =
  Some (5%nat, [[0; 2; -1; 1; 0]], [[0; 0]; [0]; [0; 0]], [[1; -3; 0; -2; 1]])%Z.
Proof.
  split; [|vm_compute; reflexivity].
  intros H. destruct (H (fun l => l) 3 2 2 free_clauses free_text) as (r & E & Rd).
  - intros. apply Permutation_refl.
  - lia.
  - discriminate.
  - repeat constructor.
  - reflexivity.
  - apply free_file.
  - destruct Rd as (_ & _ & K & _). clear H. vm_compute in E. injection E as <-. discriminate K.
Qed.

(** ** Comments between the clauses *)

(** The format allows comment lines anywhere.  With a comment between two clauses the clause
    numbers in the variable view are shifted, and a satisfied formula is reported as unsatisfied. *)
Definition c63_commented : Prop :=
  forall (ord : list Z -> list Z) (nv nc k : nat) (clauses : list (list (nat * Z))) (s : list ascii),
    (forall l, Permutation l (ord l)) -> 1 <= k -> clauses <> [] -> uniform nv k clauses -> length clauses = nc ->
    dimacs_commented nv nc clauses s ->
    exists r, read_cnf ord s = Some r /\ read_as nv nc k clauses r.
Definition c64_commented : Prop :=
  forall (ord : list Z -> list Z) (nv nc k : nat) (clauses : list (list (nat * Z))) (s : list ascii) (model : list Z) (r : cnf_result),
    (forall l, Permutation l (ord l)) -> 1 <= k -> clauses <> [] -> uniform nv k clauses -> length clauses = nc ->
    dimacs_commented nv nc clauses s -> read_cnf ord s = Some r -> model_of clauses model ->
    model_satisfied r model = Some true.

Definition cm_clauses : list (list (nat * Z)) := [[(0, 1%Z); (1, 1%Z)]; [(0, (-1)%Z); (1, 1%Z)]].
Definition cm_text : list ascii :=
  concat [header_of 2 2; line_of [(0, 1%Z); (1, 1%Z)]; lit "c second" ++ [newline]; line_of [(0, (-1)%Z); (1, 1%Z)]].
Lemma cm_file : dimacs_commented 2 2 cm_clauses cm_text.
Proof.
  exists [], (header_of 2 2), [line_of [(0, 1%Z); (1, 1%Z)]; lit "c second" ++ [newline]; line_of [(0, (-1)%Z); (1, 1%Z)]], [].
  rewrite app_nil_r. split; [reflexivity|]. destruct (header_of_line 2 2) as (H1 & H2).
  assert (S1 : Forall sign_ok [(0, 1%Z); (1, 1%Z)]) by (repeat (constructor; [left; reflexivity|]); constructor).
  assert (S2 : Forall sign_ok [(0, (-1)%Z); (1, 1%Z)]) by (constructor; [right; reflexivity|constructor; [left; reflexivity|constructor]]).
  split; [|split; [constructor|split; [exact H1|split; [|constructor]]]].
  - apply full_file. cbn [app]. constructor; [exact H2|]. constructor; [apply line_of_full, S1|].
    constructor; [full "c second"%string|]. constructor; [apply line_of_full, S2|constructor].
  - apply commented_clause; [apply line_of_clause; [discriminate|exact S1]|]. apply commented_comment; [reflexivity|].
    apply commented_clause; [apply line_of_clause; [discriminate|exact S2]|]. constructor.
Qed.

Theorem C63_commented_refuted : ~ c63_commented.
Proof.
  intros H. destruct (H (fun l => l) 2 2 2 cm_clauses cm_text) as (r & E & Rd).
  - intros. apply Permutation_refl.
  - lia.
  - discriminate.
  - repeat constructor.
  - reflexivity.
  - apply cm_file.
  - destruct Rd as (_ & _ & _ & _ & _ & _ & _ & Vv & _). destruct (Vv 0) as (V & _); [lia|]. clear Vv H.
    vm_compute in E. injection E as <-. vm_compute in V. discriminate V.
Qed.
Theorem C64_commented_refuted : ~ c64_commented.
Proof.
  intros H. destruct (read_cnf (fun l => l) cm_text) as [r|] eqn:E; [|vm_compute in E; discriminate E].
  assert (X : model_satisfied r [1; 2]%Z = Some true).
  { apply (H (fun l => l) 2 2 2 cm_clauses cm_text [1; 2]%Z r); auto.
    - discriminate.
    - repeat constructor.
    - apply cm_file.
    - intros cl [<-|[<-|[]]]; exists 1, 1%Z, 2%Z; cbn; intuition lia. }
  clear H. vm_compute in E. injection E as <-. vm_compute in X. discriminate X.
Qed.

Print Assumptions C63_read.
Print Assumptions C63_unequal.
Print Assumptions C63_roundtrip.
Print Assumptions C63_formula.
Print Assumptions C64_evaluation.
Print Assumptions C63_commented_refuted.
Print Assumptions C63_free_refuted.
Print Assumptions C64_commented_refuted.
