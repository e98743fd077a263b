(** * Vocabulary for settled messages (independent of the code). *)
From Verif Require Import Num Spec SpecRun SpecCover SpecSelection MinSum.
Local Open Scope nat_scope.

Definition close (e a b : Qc) : Prop := (b - e <= a /\ a <= b + e)%Qc.
(** [a] supports the decision for the sign of [b] as much as [r] does, up to [e]: it is at least as
    negative if [b] is negative, and at least as large otherwise *)
Definition supports (e b a r : Qc) : Prop := if qltb b 0 then (a <= r + e)%Qc else (r - e <= a)%Qc.

(** [facs] are constraints, [scope c] the variables of constraint [c], [dif] a set of variables.
    Every constraint can be handed to one of its variables ([owner]) so that every variable of [dif]
    gets all its constraints except at most one.  Equivalently, the edges between the variables of
    [dif] and their constraints can be directed with at most one edge leaving every node: no connected
    part of this graph has two cycles. *)
Definition loose {F V} (facs : list F) (scope : F -> list V) (dif : V -> Prop) : Prop :=
  exists owner : F -> V, forall v c c', dif v -> In c facs -> In c' facs ->
    In v (scope c) -> In v (scope c') -> c <> c' -> owner c = v \/ owner c' = v.

(** The same, and [root] gets all its constraints. *)
Definition loose_at {F V} (facs : list F) (scope : F -> list V) (dif : V -> Prop) (root : V) : Prop :=
  exists owner : F -> V,
    (forall v c c', dif v -> In c facs -> In c' facs ->
       In v (scope c) -> In v (scope c') -> c <> c' -> owner c = v \/ owner c' = v) /\
    (forall c, In c facs -> In root (scope c) -> owner c = root).

(** ** K-SAT *)

Definition occurs (v : nat) (l : list nat) : bool := existsb (Nat.eqb v) l.

(** The message passing on a formula, edge by edge: [V t c v] from variable [v] to clause [c] at time
    [t], [D t c v] the clause's min-sum message in return, [M t c v] its filtered value.  A variable
    tells a clause its metric plus what it heard last from its other clauses. *)
Definition clause_messages (conx : list (list nat)) (types : list (list Z)) (metrics : list Qc)
    (flag : bool) (alpha : Qc) (V D M : nat -> nat -> nat -> Qc) : Prop :=
  forall c cx tys, nth_error conx c = Some cx -> nth_error types c = Some tys ->
  forall j v, nth_error cx j = Some v ->
    V 0 c v = nth v metrics 0%Qc /\
    forall t,
      minsum_message (clause_ok (signs tys)) (map (V t c) cx) j (Fin (D t c v)) /\
      M t c v = filtered flag alpha (fun i => D i c v) t /\
      V (t + 1) c v = (nth v metrics 0 +
        qsum (map (fun c' => M t c' v)
                  (filter (fun c' => occurs v (nth c' conx [])) (others c (seq 0 (length conx))))))%Qc.

(** [x] and [y] differ at [v] *)
Definition differ (x y : list bool) (v : nat) : bool := xorb (nth v x false) (nth v y false).
(** number of the constraints [live] that contain [v] *)
Definition occurrences {F} (live : list F) (scope : F -> list nat) (v : nat) : nat :=
  length (filter (fun c => occurs v (scope c)) live).

(** absolute value *)
Definition magnitude (q : Qc) : Qc := if qltb q 0 then (- q)%Qc else q.

(** ** TSP *)

(** edge number [i] of [E] belongs to the cover [s] *)
Definition covered (E : list (nat * nat)) (s : list nat) (i : nat) : bool :=
  snd (nth i E (0, 0)) =? nth (fst (nth i E (0, 0))) s 0.
(** the covers [s] and [s'] differ at edge number [i] *)
Definition swapped (E : list (nat * nat)) (s s' : list nat) (i : nat) : bool :=
  xorb (covered E s i) (covered E s' i).
(** the cover [s] uses an edge of every list of edge numbers in [D] *)
Definition crosses (E : list (nat * nat)) (D : list (list nat)) (s : list nat) : Prop :=
  forall d, In d D -> exists i, In i d /\ covered E s i = true.
(** the positions of the lists of [D] that contain [i] *)
Definition holding (D : list (list nat)) (i : nat) : list nat :=
  filter (fun s => occurs i (nth s D [])) (seq 0 (length D)).
(** the covers [s] and [s'] differ at one edge of [d] at most *)
Definition one_exchange (E : list (nat * nat)) (d : list nat) (s s' : list nat) : Prop :=
  forall i j, In i d -> In j d -> swapped E s s' i = true -> swapped E s s' j = true -> i = j.
(** the messages [Y] from the lists of [D] in [K] to the edges of [s], in total *)
Definition charge (E : list (nat * nat)) (D : list (list nat)) (Y : nat -> nat -> Qc) (K : nat -> bool) (s : list nat) : Qc :=
  qsum (map (fun k => qsum (map (Y k) (filter (covered E s) (nth k D [])))) (filter K (seq 0 (length D)))).

(** The message passing of a TSP stage on the edges [E] with the subtour constraints [D], message by
    message: [V t i u] from edge [i] to its end [u], [Dg t i u] in return, [M t i u] its filtered value;
    [ES t k i] from edge [i] to subtour constraint [k], [SD t k i] in return, [B (t + 1) k i] its filtered
    value.  The edge's message to the constraints takes the messages of the ends at the same time, but those
    of the other constraints from before. *)
Definition tour_messages (n : nat) (E : list (nat * nat)) (C : list (list Qc)) (D : list (list nat))
    (flag : bool) (alpha : Qc) (V0 B0 : nat -> nat -> Qc) (V Dg M B ES SD : nat -> nat -> nat -> Qc) : Prop :=
  (forall i u v, nth_error E i = Some (u, v) -> V 0 i u = V0 i u /\ V 0 i v = V0 i v) /\
  (forall k d i, nth_error D k = Some d -> In i d -> B 0 k i = B0 k i) /\
  forall t,
    (forall u, u < n ->
       (forall pos i, nth_error (from_node E u) pos = Some i ->
          minsum_message exactly_one (map (fun i => V t i u) (from_node E u)) pos (Fin (Dg t i u))) /\
       (forall pos i, nth_error (into_node E u) pos = Some i ->
          minsum_message exactly_one (map (fun i => V t i u) (into_node E u)) pos (Fin (Dg t i u)))) /\
    (forall i u v, nth_error E i = Some (u, v) ->
       M t i u = filtered flag alpha (fun r => Dg r i u) t /\
       M t i v = filtered flag alpha (fun r => Dg r i v) t /\
       V (t + 1) i u = (qat C u v + M t i v + qsum (map (fun k => B (t + 1)%nat k i) (holding D i)))%Qc /\
       V (t + 1) i v = (qat C u v + M t i u + qsum (map (fun k => B (t + 1)%nat k i) (holding D i)))%Qc) /\
    (forall k d i u v, nth_error D k = Some d -> In i d -> nth_error E i = Some (u, v) ->
       ES t k i = (qat C u v + M t i u + M t i v + qsum (map (fun k' => B t k' i) (others k (holding D i))))%Qc) /\
    (forall k d pos i, nth_error D k = Some d -> nth_error d pos = Some i ->
       minsum_message at_least_one (map (ES t k) d) pos (Fin (SD t k i)) /\
       B (t + 1) k i = filtered flag alpha (fun r => SD r k i) t).

(** ** KC-MWM *)

(** Assignments of teams to projects, as lists of pairs (project, team): every project and every team at
    most once. *)
Definition matched (T P : nat) (F : list (nat * nat)) : Prop :=
  NoDup (map fst F) /\ NoDup (map snd F) /\ forall p x, In (p, x) F -> p < P /\ x < T.
(** team [x] is used; the pair is used *)
Definition pick (F : list (nat * nat)) (x : nat) : bool := existsb (fun e => snd e =? x) F.
Definition has_pair (F : list (nat * nat)) (e : nat * nat) : bool :=
  existsb (fun f => (fst f =? fst e) && (snd f =? snd e)) F.
(** the pairs in one of the two lists *)
Definition traded (F F' : list (nat * nat)) : list (nat * nat) :=
  filter (fun e => negb (has_pair F' e)) F ++ filter (fun e => negb (has_pair F e)) F'.
(** at most one team of department [d] is used by only one of [F] and [F'] *)
Definition one_trade (W : list (list nat)) (d : nat) (F F' : list (nat * nat)) : Prop :=
  forall x x', takes_part W d x = true -> takes_part W d x' = true ->
    xorb (pick F x) (pick F' x) = true -> xorb (pick F x') (pick F' x') = true -> x = x'.
(** the messages [X] from the departments in [K] to the teams of [F], in total *)
Definition fees (D : nat) (X : nat -> nat -> Qc) (K : nat -> bool) (F : list (nat * nat)) : Qc :=
  qsum (map (fun d => qsum (map (fun e => X d (snd e)) F)) (filter K (seq 0 D))).

(** The message passing of KC-MWM, message by message: [A t d x] from team [x] to department [d], [Dm t d x]
    in return, [X t d x] its filtered value; [TO t x] from team [x] to its coupling constraint, [OT t x] in
    return, never above 1000000; [EO t p x] from pair ([p], [x]) to the coupling constraint of the team,
    [CE t p x] in return; [EP t p x] from the pair to its project, [PE t p x] in return. *)
Definition team_messages (T D P : nat) (W : list (list nat)) (R : list (list Qc)) (reward : list Qc) (caps : list nat)
    (flag : bool) (alpha : Qc) (A Dm X : nat -> nat -> nat -> Qc) (TO OT : nat -> nat -> Qc)
    (EO CE EP PE : nat -> nat -> nat -> Qc) : Prop :=
  (forall d x, d < D -> takes_part W d x = true -> A 0 d x = nth x reward 0%Qc) /\
  (forall p x, p < P -> x < T -> EO 0 p x = 0%Qc) /\
  forall t,
    (forall d ws cap, nth_error W d = Some ws -> nth_error caps d = Some cap ->
       forall i x, nth_error (participants T ws) i = Some x ->
         minsum_message (within (map (fun x => nth x ws 0) (participants T ws)) cap)
           (map (A t d) (participants T ws)) i (Fin (Dm t d x))) /\
    (forall d x, d < D -> x < T -> takes_part W d x = false -> Dm t d x = 0%Qc) /\
    (forall d x, d < D -> x < T -> X t d x = filtered flag alpha (fun i => Dm i d x) t) /\
    (forall x, x < T -> TO t x = (nth x reward 0 + qsum (map (fun d => X t d x) (seq 0 D)))%Qc) /\
    (forall p x, p < P -> x < T ->
       minsum_message coupled (TO t x :: map (fun p => EO t p x) (seq 0 P)) (S p) (Fin (CE t p x)) /\
       EP t p x = (CE t p x + qat R p x)%Qc /\
       minsum_message at_most_one (map (EP t p) (seq 0 T)) x (Fin (PE t p x)) /\
       EO (t + 1) p x = (PE t p x + qat R p x)%Qc) /\
    (forall x, x < T -> exists v,
       minsum_message coupled (TO t x :: map (fun p => EO (t + 1) p x) (seq 0 P)) 0 v /\
       Fin (OT t x) = nmin (zn 1000000) v) /\
    (forall d x, d < D -> x < T -> takes_part W d x = true ->
       A (t + 1) d x = (nth x reward 0 + OT t x +
         qsum (map (fun d' => X t d' x) (filter (fun d' => takes_part W d' x) (others d (seq 0 D)))))%Qc).

(** The messages at time [s] are settled up to [e] and [e2] for the values [bT] of the teams and [bP] of the
    pairs: no value is within [e] of 0, and the next messages of departments, coupling constraints and teams
    support the decisions as the last ones do. *)
Definition teams_settled (T D P : nat) (W : list (list nat)) (e e2 : Qc) (s : nat) (bT bP : list Qc)
    (Dm X : nat -> nat -> nat -> Qc) (TO OT : nat -> nat -> Qc) (CE : nat -> nat -> nat -> Qc) : Prop :=
  (forall x, x < T -> let b := nth x bT 0%Qc in
     (b < - e \/ e < b)%Qc /\ (OT s x < zq 1000000)%Qc /\
     supports e b (TO (s + 1) x) (TO s x) /\ supports e2 b (TO s x) (TO (s + 1) x)) /\
  (forall d x, d < D -> takes_part W d x = true -> supports e (nth x bT 0%Qc) (Dm (s + 1) d x) (X s d x)) /\
  (forall p x, p < P -> x < T -> let b := nth (p * T + x) bP 0%Qc in
     (b < - e \/ e < b)%Qc /\ supports e b (CE (s + 1) p x) (CE s p x)).
(** [F] is not more expensive than any assignment [F'], up to the exchanged pairs times [slack], if the
    departments in [K] charge their messages and in every other department, which keeps its capacity, at
    most one team is exchanged. *)
Definition not_improved (T D P : nat) (W : list (list nat)) (caps : list nat) (R : list (list Qc)) (reward : list Qc)
    (X : nat -> nat -> Qc) (slack : Qc) (F : list (nat * nat)) : Prop :=
  forall F' K, matched T P F' ->
    (forall d, d < D -> K d = false ->
       list_sum (map (fun e => share W d (snd e)) F') <= nth d caps 0 /\ one_trade W d F F') ->
    (selection_cost R reward F + fees D X K F <=
     selection_cost R reward F' + fees D X K F' + qn (length (traded F F')) * slack)%Qc.
