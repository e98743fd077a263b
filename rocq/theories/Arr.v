(** * Checked arrays and loops.

    [std::vector] and Python lists are Coq lists; an access outside the bounds makes the whole
    computation [None] (C++: undefined behaviour, Python: IndexError).  Indices are [nat]: all
    index expressions in the modelled code are non-negative whenever they are evaluated, and
    where the C++ code would underflow the model fails explicitly. *)
From Coq Require Export List Arith Lia Bool.
Export ListNotations.

Definition bind {A B} (o : option A) (f : A -> option B) : option B :=
  match o with Some a => f a | None => None end.
Notation "x <- e ;; k" := (bind e (fun x => k))
  (at level 61, e at next level, right associativity).
Notation "' p <- e ;; k" := (bind e (fun x => let p := x in k))
  (at level 61, p pattern, e at next level, right associativity).

(** [v[i]] *)
Definition get {A} (l : list A) (i : nat) : option A := nth_error l i.

(** total update, used only below its guard *)
Fixpoint upd {A} (l : list A) (i : nat) (v : A) : list A :=
  match l, i with
  | [], _ => []
  | _ :: l, 0 => v :: l
  | x :: l, S i => x :: upd l i v
  end.

(** [v[i] = x] *)
Definition set {A} (l : list A) (i : nat) (v : A) : option (list A) :=
  if i <? length l then Some (upd l i v) else None.

(** [m[i][j]] and [m[i][j] = x] *)
Definition get2 {A} (m : list (list A)) (i j : nat) : option A :=
  r <- get m i ;; get r j.
Definition set2 {A} (m : list (list A)) (i j : nat) (v : A) : option (list (list A)) :=
  r <- get m i ;; r' <- set r j v ;; set m i r'.

(** A loop over the elements of a list, threading a state. *)
Fixpoint foldM {S A} (body : S -> A -> option S) (l : list A) (s : S) : option S :=
  match l with
  | [] => Some s
  | a :: l => s' <- body s a ;; foldM body l s'
  end.

(** [for (i = lo; i < hi; i++)] *)
Definition for_up {S} (lo hi : nat) (s : S) (body : S -> nat -> option S) : option S :=
  foldM body (seq lo (hi - lo)) s.
(** [for (i = hi - 1; i >= lo; i--)] *)
Definition for_down {S} (lo hi : nat) (s : S) (body : S -> nat -> option S) : option S :=
  foldM body (rev (seq lo (hi - lo))) s.

(** All results or failure. *)
Fixpoint mapM {A B} (f : A -> option B) (l : list A) : option (list B) :=
  match l with
  | [] => Some []
  | a :: l => b <- f a ;; bs <- mapM f l ;; Some (b :: bs)
  end.

(** [std::transform(a.begin(), a.end(), b.begin(), out.begin(), op)]: [b] and [out] must be at
    least as long as [a]; the tail of [out] is kept. *)
Definition zip_with {A B C} (f : A -> B -> C) (a : list A) (b : list B) : list C :=
  map (fun p => f (fst p) (snd p)) (combine a b).
Definition transform2 {A B C} (f : A -> B -> C) (a : list A) (b : list B) (out : list C)
  : option (list C) :=
  if (length a <=? length b) && (length a <=? length out)
  then Some (zip_with f a b ++ skipn (length a) out) else None.

(** [std::copy(a.begin(), a.end(), out.begin())] *)
Definition copy_into {A} (a out : list A) : option (list A) :=
  if length a <=? length out then Some (a ++ skipn (length a) out) else None.

(** [std::copy(p + lo, p + hi, ...)] reading from a raw buffer. *)
Definition slice {A} (buf : list A) (lo hi : nat) : option (list A) :=
  if (lo <=? hi) && (hi <=? length buf) then Some (firstn (hi - lo) (skipn lo buf)) else None.
