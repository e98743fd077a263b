(** * Vocabulary used in the statements of the properties (independent of the code). *)
From Verif Require Import Num.
Local Open Scope nat_scope.

(** an [n] by [k] matrix *)
Definition shape {A} (n k : nat) (m : list (list A)) : Prop :=
  length m = n /\ Forall (fun r => length r = k) m.

(** entry of a rational matrix, and the same matrix as finite doubles *)
Definition qat (M : list (list Qc)) (i j : nat) : Qc := nth j (nth i M []) 0%Qc.
Definition inj (M : list (list Qc)) : list (list num) := map (map Fin) M.

(** column [t] of a matrix with [P] rows *)
Definition col (M : list (list Qc)) (P t : nat) : list Qc := map (fun p => qat M p t) (seq 0 P).

(** ** Directed graphs given by an edge list *)

Definition no_self_loop (E : list (nat * nat)) : Prop := Forall (fun e => fst e <> snd e) E.

(** all endpoints are among the first [k] nodes *)
Definition edges_in (k : nat) (E : list (nat * nat)) : Prop :=
  Forall (fun e => fst e < k /\ snd e < k) E.

(** indices of the edges that leave (enter) node [u], in increasing order *)
Definition from_node (E : list (nat * nat)) (u : nat) : list nat :=
  filter (fun i => fst (nth i E (0, 0)) =? u) (seq 0 (length E)).
Definition into_node (E : list (nat * nat)) (u : nat) : list nat :=
  filter (fun i => snd (nth i E (0, 0)) =? u) (seq 0 (length E)).

(** sum of a list *)
Definition qsum (l : list Qc) : Qc := fold_right Qcplus 0%Qc l.

(** the members of a list other than [a] *)
Definition others (a : nat) (l : list nat) : list nat := filter (fun b => negb (b =? a)) l.

(** ** K-SAT formulas: a clause is a list of variables and a list of literal types (+1/-1) *)
Definition pm1 (t : Z) : Prop := t = 1%Z \/ t = (-1)%Z.
Definition signs (tys : list Z) : list bool := map (fun t => (t =? 1)%Z) tys.
(** what one clause requires *)
Definition clause_wf (nv k : nat) (conx : list nat) (tys : list Z) : Prop :=
  length conx = k /\ length tys = k /\ NoDup conx /\ Forall (fun v => v < nv) conx /\
  Forall pm1 tys.


(** ** KC-MWM departments: the teams with a non-zero weight, in increasing order *)
Definition participants (T : nat) (ws : list nat) : list nat :=
  filter (fun t => negb (nth t ws 0 =? 0)) (seq 0 T).
(** strictly increasing *)
Definition increasing (l : list nat) : Prop :=
  forall i j x y, i < j -> nth_error l i = Some x -> nth_error l j = Some y -> x < y.
