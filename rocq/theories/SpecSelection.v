(** * Vocabulary for the capacitated matching problem (independent of the code). *)
From Coq Require Import Permutation.
From Verif Require Import Num Spec SpecRun.
Local Open Scope nat_scope.

(** [W]: one row of weights per department; [R]: one row of values per project, one column per team;
    [reward]: one value per team.  A selection is a list of pairs (project, team). *)
Definition share (W : list (list nat)) (d t : nat) : nat := nth t (nth d W []) 0.
(** every project and every team at most once, every department within its capacity *)
Definition selection (T D P : nat) (W : list (list nat)) (caps : list nat) (F : list (nat * nat)) : Prop :=
  NoDup (map fst F) /\ NoDup (map snd F) /\ (forall p t, In (p, t) F -> p < P /\ t < T) /\
  (forall d, d < D -> list_sum (map (fun e => share W d (snd e)) F) <= nth d caps 0).
Definition pair_cost (R : list (list Qc)) (reward : list Qc) (p t : nat) : Qc := (nth t reward 0 + qat R p t)%Qc.
Definition selection_cost (R : list (list Qc)) (reward : list Qc) (F : list (nat * nat)) : Qc :=
  qsum (map (fun e => pair_cost R reward (fst e) (snd e)) F).
(** [F] is a selection, and cheaper than every other one by at least [eps] *)
Definition best_by (T D P : nat) (W : list (list nat)) (caps : list nat) (R : list (list Qc)) (reward : list Qc)
  (F : list (nat * nat)) (eps : Qc) : Prop :=
  selection T D P W caps F /\
  forall F', selection T D P W caps F' -> ~ Permutation F' F ->
    (selection_cost R reward F + eps <= selection_cost R reward F')%Qc.

(** the department cannot take all its teams *)
Definition scarce (T : nat) (W : list (list nat)) (caps : list nat) (d : nat) : Prop :=
  nth d caps 0 < list_sum (map (share W d) (seq 0 T)).
(** scarce departments count teams: their teams have one weight, and no team is in two of them *)
Definition counting (T D : nat) (W : list (list nat)) (caps : list nat) : Prop :=
  (forall d t t', d < D -> scarce T W caps d -> share W d t <> 0 -> share W d t' <> 0 -> share W d t = share W d t') /\
  (forall d d' t, d < D -> d' < D -> scarce T W caps d -> scarce T W caps d' ->
     share W d t <> 0 -> share W d' t <> 0 -> d = d').
