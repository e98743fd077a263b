(** * Formulas as DIMACS text: test/python_ksat/src/process2cnf.py and run_minisat.py.

    Text is a list of ASCII characters (simplified: Python strings are Unicode; line ends are those
    after the newline translation of text mode). *)
From Coq Require Import Ascii String ZArith.
From Verif Require Import Num Arr M_Tsp_Run M_Tsp_Post M_Ksat_Py.
Local Open Scope nat_scope.

Notation text := (list ascii).
(** a literal of the Python source *)
Definition lit (s : string) : text := list_ascii_of_string s.
Definition newline : ascii := "010"%char.

(** ** Numbers *)

Definition digit (d : nat) : ascii := ascii_of_nat (48 + d).
Fixpoint digits (fuel n : nat) : text :=
  match fuel with
  | 0 => []
  | S fuel => if n <? 10 then [digit n] else digits fuel (n / 10) ++ [digit (n mod 10)]
  end.
(** [str(n)] of a non-negative int *)
Definition str_nat (n : nat) : text := digits (S n) n.

Definition is_digit (c : ascii) : bool := (48 <=? nat_of_ascii c) && (nat_of_ascii c <=? 57).
Fixpoint value (acc : Z) (s : text) : option Z :=
  match s with
  | [] => Some acc
  | c :: r => if is_digit c then value (10 * acc + Z.of_nat (nat_of_ascii c - 48)) r else None
  end.
Definition unsigned (s : text) : option Z := match s with [] => None | _ => value 0 s end.
(** [int(s)] for a string without white space; [None] is ValueError (simplified: underscores
    between the digits are not accepted) *)
Definition to_int (s : text) : option Z :=
  match s with
  | c :: r => if (c =? "-")%char then option_map Z.opp (unsigned r)
              else if (c =? "+")%char then unsigned r else unsigned s
  | [] => None
  end.

(** ** Strings *)

(** [s.startswith(p)] *)
Fixpoint starts (p s : text) : bool :=
  match p, s with
  | [], _ => true
  | a :: p, b :: s => (a =? b)%char && starts p s
  | _, _ => false
  end.
(** [file.readlines()]: every line keeps its line end *)
Fixpoint lines_from (cur s : text) : list text :=
  match s with
  | [] => match cur with [] => [] | _ => [rev cur] end
  | c :: r => if (c =? newline)%char then rev (c :: cur) :: lines_from [] r else lines_from (c :: cur) r
  end.
Definition readlines (s : text) : list text := lines_from [] s.
(** white space of [str.split()] *)
Definition is_space (c : ascii) : bool :=
  let n := nat_of_ascii c in ((9 <=? n) && (n <=? 13)) || ((28 <=? n) && (n <=? 32)).
(** [s.split()]; also [s.strip().split()], since leading and trailing white space never makes a
    token *)
Definition flush (cur : text) : list text := match cur with [] => [] | _ => [rev cur] end.
Fixpoint split_from (cur s : text) : list text :=
  match s with
  | [] => flush cur
  | c :: r => if is_space c then flush cur ++ split_from [] r else split_from (c :: cur) r
  end.
Definition split (s : text) : list text := split_from [] s.

(** ** create_cnf_file: process2cnf.py:3-17; the result is the content of the file *)

(** 12-16 *)
Definition literal_text (v : nat) (t : Z) : text :=
  (if (t =? -1)%Z then lit "-" else []) ++ str_nat (v + 1) ++ lit " ".
(** 10-17, one clause *)
Definition clause_text (clause : list nat) (clause_type : list Z) : option text :=
  ws <- mapM (fun jt => v <- get clause (fst jt) ;; Some (literal_text v (snd jt))) (enumerate clause_type) ;;
  Some (concat ws ++ lit "0" ++ [newline]).
Definition create_cnf (conx : list (list nat)) (types : list (list Z)) (nv nc : nat) : option text :=
  cls <- mapM (fun it => clause <- get conx (fst it) ;; clause_text clause (snd it)) (enumerate types) ;;
  Some ((lit "p cnf " ++ str_nat nv ++ lit " " ++ str_nat nc ++ [newline]) ++ concat cls).

(** ** read_cnf_file: run_minisat.py:13-68 *)

(** Lists filled by the loop: 14-16, 29-30; [q_solver] are the clauses added to the solver (38);
    [q_k] is [k_variable], [None] while it is unbound. *)
Record cnf := {
  q_conx : list (list Z);
  q_types : list (list Z);
  q_used : list Z;
  q_vconx : list (list Z);
  q_vtypes : list (list Z);
  q_k : option nat;
  q_solver : list (list Z) }.

(** Python list index, counted from the end when negative; [None] is IndexError *)
Definition py_pos (len : nat) (i : Z) : option nat :=
  let n := Z.of_nat len in
  if (0 <=? i)%Z && (i <? n)%Z then Some (Z.to_nat i)
  else if (- n <=? i)%Z && (i <? 0)%Z then Some (Z.to_nat (n + i)) else None.
(** [m[i].append(x)] *)
Definition append_at {A} (m : list (list A)) (i : Z) (x : A) : option (list (list A)) :=
  p <- py_pos (length m) i ;; row <- get m p ;; set m p (row ++ [x]).

(** 21-27: the first line starting with "p cnf", with its position *)
Fixpoint find_header (i : nat) (ls : list text) : option (nat * text) :=
  match ls with
  | [] => None
  | l :: ls => if starts (lit "p cnf") l then Some (i, l) else find_header (S i) ls
  end.
(** 33 *)
Definition skip_line (l : text) : bool :=
  starts (lit "c") l || starts (lit "p") l || starts (lit "%") l || starts [newline] l || starts (lit "0") l.
(** 43-45 and 52-53 *)
Definition parse_literal (w : text) : option (Z * Z) :=
  if starts (lit "-") w then v <- to_int (tl w) ;; Some ((v - 1)%Z, (-1)%Z)
  else v <- to_int w ;; Some ((v - 1)%Z, 1%Z).
(** 42-58: one word of the clause with number [ci]; the accumulators are [used_variables],
    [variables_connections], [variables_connections_type], [connections] and [connections_type] *)
Definition literal_step (ci : Z) (st : list Z * list (list Z) * list (list Z) * list Z * list Z) (w : text) :=
  let '(used, vconx, vtypes, conn, conn_type) := st in
  '(v, t) <- parse_literal w ;;
  vconx' <- append_at vconx v ci ;;
  vtypes' <- append_at vtypes v t ;;
  Some (used ++ [v], vconx', vtypes', conn ++ [v], conn_type ++ [t]).
(** 32-64: one line at position [fst il] *)
Definition line_step (start : nat) (q : cnf) (il : nat * text) : option cnf :=
  let '(index, line) := il in
  if skip_line line then Some q else
  let constraint := removelast (split line) in
  numbers <- mapM to_int constraint ;;
  let ci := (Z.of_nat index - Z.of_nat start)%Z in
  '(used, vconx, vtypes, conn, conn_type) <-
    foldM (literal_step ci) constraint (q_used q, q_vconx q, q_vtypes q, [], []) ;;
  k <- (if (ci =? 0)%Z then Some (length conn)
        else k <- q_k q ;; if k =? length conn then Some k else None) ;;
  Some {| q_conx := q_conx q ++ [conn]; q_types := q_types q ++ [conn_type]; q_used := used;
          q_vconx := vconx; q_vtypes := vtypes; q_k := Some k; q_solver := q_solver q ++ [numbers] |}.

(** The returned tuple (68): the numbers of the header and of variables per clause, and the lists;
    [ord] is the order in which Python lists the elements of a set (66). *)
Record cnf_result := { z_nv : Z; z_nc : Z; z_k : nat; z_lists : cnf }.
Definition read_cnf (ord : list Z -> list Z) (s : text) : option cnf_result :=
  let ls := readlines s in
  '(i, header) <- find_header 0 ls ;;
  '(nv, nc) <- match split header with
               | [_; _; a; b] => nv <- to_int a ;; nc <- to_int b ;; Some (nv, nc)
               | _ => None end ;;
  q <- foldM (line_step (i + 1)) (enumerate ls)
         {| q_conx := []; q_types := []; q_used := []; q_vconx := repeat [] (Z.to_nat nv);
            q_vtypes := repeat [] (Z.to_nat nv); q_k := None; q_solver := [] |} ;;
  k <- q_k q ;;
  Some {| z_nv := nv; z_nc := nc; z_k := k;
          z_lists := {| q_conx := q_conx q; q_types := q_types q; q_used := ord (nodup Z.eq_dec (q_used q));
                        q_vconx := q_vconx q; q_vtypes := q_vtypes q; q_k := q_k q; q_solver := q_solver q |} |}.

(** ** Evaluation of the model found by the solver: run_minisat.py:119-140 *)

(** 121, 123-124 *)
Definition model_vars (value : bool) (model : list Z) : list nat :=
  map fst (filter (fun p => Bool.eqb (0 <? snd p)%Z value) (enumerate model)).
(** 126-127 and 129-130 *)
Definition model_hits (q : cnf) (want : Z) (vars : list nat) : option (list Z) :=
  mapM (fun ij => get2 (q_vconx q) (fst ij) (snd ij))
       (filter (fun ij => (nth (snd ij) (nth (fst ij) (q_vtypes q) []) 0 =? want)%Z && mem (fst ij) vars)
               (positions (q_vtypes q))).
(** 132-134: the clauses that are reported as unsatisfied *)
Definition model_unsatisfied (r : cnf_result) (model : list Z) : option (list nat) :=
  solid <- model_hits (z_lists r) 1 (model_vars true model) ;;
  dashed <- model_hits (z_lists r) (-1) (model_vars false model) ;;
  Some (filter (fun c => negb (existsb (Z.eqb (Z.of_nat c)) (solid ++ dashed))) (seq 0 (Z.to_nat (z_nc r)))).
(** 119, 136-140 *)
Definition model_satisfied (r : cnf_result) (model : list Z) : option bool :=
  u <- model_unsatisfied r model ;; Some (match u with [] => true | _ => false end).
