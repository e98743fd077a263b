(** * Specification: DIMACS files of formulas (no code is modelled here). *)
From Coq Require Import Ascii String ZArith List Arith.
Import ListNotations.
Local Open Scope nat_scope.

Definition code (c : ascii) : nat := nat_of_ascii c.
Definition is_decimal_digit (c : ascii) : Prop := 48 <= code c <= 57.
Definition blank (c : ascii) : Prop := c = " "%char \/ c = "009"%char \/ c = "010"%char \/ c = "013"%char.

(** [w] is the decimal notation of [n], without leading zeros *)
Definition decimal (n : nat) (w : list ascii) : Prop :=
  w <> [] /\ Forall is_decimal_digit w /\ fold_left (fun a c => 10 * a + (code c - 48)) w 0 = n /\
  (hd_error w = Some "0"%char -> n = 0).

(** the text [s] consists of the words [ws], separated and surrounded by blanks *)
Inductive words : list (list ascii) -> list ascii -> Prop :=
| words_nil b : Forall blank b -> words [] b
| words_cons b w s ws : Forall blank b -> w <> [] -> Forall (fun c => 33 <= code c) w ->
    (forall c, hd_error s = Some c -> blank c) -> words ws s -> words (w :: ws) (b ++ w ++ s).

(** a literal: variable (counted from 0) and sign *)
Definition literal_word (l : nat * Z) (w : list ascii) : Prop :=
  (snd l = 1%Z /\ decimal (fst l + 1) w) \/
  (snd l = (-1)%Z /\ exists d, w = "-"%char :: d /\ decimal (fst l + 1) d).

Definition header_line (nv nc : nat) (line : list ascii) : Prop :=
  exists rest a b, line = list_ascii_of_string "p cnf" ++ rest /\
    (forall c, hd_error rest = Some c -> blank c) /\ words [a; b] rest /\ decimal nv a /\ decimal nc b.
(** a clause: its literals and a final 0 *)
Definition clause_line (ls : list (nat * Z)) (line : list ascii) : Prop :=
  hd_error line <> Some "010"%char /\
  exists ws, words (ws ++ [list_ascii_of_string "0"]) line /\ Forall2 literal_word ls ws.
Definition comment_line (line : list ascii) : Prop := hd_error line = Some "c"%char.
(** comments and the lines that end the files of some collections: "%", "0" and empty lines *)
Definition trailer_line (line : list ascii) : Prop :=
  exists c, hd_error line = Some c /\ In c ["c"; "%"; "0"; "010"]%char.
(** a line with its line end *)
Definition full_line (line : list ascii) : Prop :=
  exists b, line = b ++ ["010"%char] /\ ~ In "010"%char b.

(** the lines of a file: the last one may lack its line end *)
Inductive file_lines : list (list ascii) -> Prop :=
| file_nil : file_lines []
| file_last l : l <> [] -> ~ In "010"%char l -> file_lines [l]
| file_cons l ls : full_line l -> file_lines ls -> file_lines (l :: ls).

(** A file with [clauses]: comments, the header, one line for every clause, trailing lines. *)
Definition dimacs (nv nc : nat) (clauses : list (list (nat * Z))) (s : list ascii) : Prop :=
  exists pre header body post, s = concat (pre ++ header :: body ++ post) /\
    file_lines (pre ++ header :: body ++ post) /\
    Forall comment_line pre /\ header_line nv nc header /\ Forall2 clause_line clauses body /\ Forall trailer_line post.
(** The same with comments between the clauses too, as the format allows. *)
Inductive commented : list (list (nat * Z)) -> list (list ascii) -> Prop :=
| commented_nil : commented [] []
| commented_clause c l cs ls : clause_line c l -> commented cs ls -> commented (c :: cs) (l :: ls)
| commented_comment l cs ls : comment_line l -> commented cs ls -> commented cs (l :: ls).
Definition dimacs_commented (nv nc : nat) (clauses : list (list (nat * Z))) (s : list ascii) : Prop :=
  exists pre header body post, s = concat (pre ++ header :: body ++ post) /\
    file_lines (pre ++ header :: body ++ post) /\
    Forall comment_line pre /\ header_line nv nc header /\ commented clauses body /\ Forall trailer_line post.

(** Clauses in free format: after the header the literals of each clause and a 0, over any number of lines. *)
Definition dimacs_free (nv nc : nat) (clauses : list (list (nat * Z))) (s : list ascii) : Prop :=
  exists header body wss, s = header ++ body /\ header_line nv nc header /\ full_line header /\
    Forall2 (Forall2 literal_word) clauses wss /\ words (flat_map (fun ws => ws ++ [list_ascii_of_string "0"]) wss) body.

(** The clauses that contain variable [v], in order, with the sign: one entry for every occurrence. *)
Definition occurrences (v : nat) (clauses : list (list (nat * Z))) : list (nat * Z) :=
  flat_map (fun ic => map (fun l => (fst ic, snd l)) (filter (fun l => fst l =? v) (snd ic)))
    (combine (seq 0 (length clauses)) clauses).

(** The model (one signed number for every variable) makes every clause true. *)
Definition model_of (clauses : list (list (nat * Z))) (model : list Z) : Prop :=
  forall cl, In cl clauses -> exists v t x, In (v, t) cl /\ nth_error model v = Some x /\
    ((t = 1%Z /\ (0 < x)%Z) \/ (t = (-1)%Z /\ (x <= 0)%Z)).
