(** * Model: project-inequality and team/project coupling (ORIC) updates (C++).

    include/impalib/project_inequality_constraint.hpp:45-90 and
    include/impalib/update_or_inequality_constraint.hpp:56-136.

    Both use the same two-state trellis ([maxStateIc_] = 1), written once here.
    [step stage x] is the branch metric added to the state value [x] at [stage]:
    [x + rEqConstraint2ProjectM[project_index][stage]] for projects (hpp:69 and :79),
    [x + rEqConstraint2OricM[stage][team_index] + mTeam2ORIC[team_index]] for ORIC
    (hpp:81-83 and :94-95). *)
From Verif Require Import Num Arr.
Local Open Scope nat_scope.

(** initial forward messages [0, inf]; initial backward messages [0, 0]
    (project_inequality_constraint.hpp:57-59, update_or_inequality_constraint.hpp:70-73) *)
Definition init_forward : list num := [n0; PInf].
Definition init_backward : list num := [n0; n0].

(** project_inequality_constraint.hpp:61-70, update_or_inequality_constraint.hpp:74-84 *)
Definition ic_forward (n : nat) (step : nat -> num -> option num) (tbl : list (list num))
  : option (list (list num)) :=
  tbl <- set tbl 0 init_forward ;;
  for_up 0 n tbl (fun tbl stage =>
    a0 <- get2 tbl stage 0 ;;
    tbl <- set2 tbl (stage + 1) 0 a0 ;;
    a1 <- get2 tbl stage 1 ;;
    a0' <- get2 tbl stage 0 ;;
    s <- step stage a0' ;;
    set2 tbl (stage + 1) 1 (nmin a1 s)).

(** project_inequality_constraint.hpp:72-80, update_or_inequality_constraint.hpp:87-97 *)
Definition ic_backward (n : nat) (step : nat -> num -> option num) (tbl : list (list num))
  : option (list (list num)) :=
  tbl <- set tbl n init_backward ;;
  for_down 0 n tbl (fun tbl stage =>
    b0 <- get2 tbl (stage + 1) 0 ;;
    b1 <- get2 tbl (stage + 1) 1 ;;
    s <- step stage b1 ;;
    tbl <- set2 tbl stage 0 (nmin b0 s) ;;
    b1' <- get2 tbl (stage + 1) 1 ;;
    set2 tbl stage 1 b1').

(** project_inequality_constraint.hpp:54-89, body of the loop over projects *)
Definition project_one (num_teams : nat) (msgs : list (list num))
  (st : list (list num) * list (list num) * list (list num)) (p : nat)
  : option (list (list num) * list (list num) * list (list num)) :=
  let '(fwd, bwd, out) := st in
  let step stage x := m <- get2 msgs p stage ;; Some (nadd x m) in
  fwd <- ic_forward num_teams step fwd ;;
  bwd <- ic_backward num_teams step bwd ;;
  out <- for_up 0 num_teams out (fun out t =>
    a <- get2 fwd t 1 ;;
    b <- get2 bwd (t + 1) 0 ;;
    set2 out p t (nopp (nmin (nmin a b) n0))) ;;
  Some (fwd, bwd, out).

(** project_inequality_constraint.hpp:45-90 *)
Definition project_update (num_teams : nat) (msgs out : list (list num))
  : option (list (list num)) :=
  ' (_, _, out) <- for_up 0 (length out)
      (repeat [n0; n0] (num_teams + 1), repeat [n0; n0] (num_teams + 1), out)
      (project_one num_teams msgs) ;;
  Some out.

(** update_or_inequality_constraint.hpp:67-109, body of the loop over teams; the state is the
    two stage tables and the two output matrices. *)
Definition oric_one (num_projects : nat) (eq2oric : list (list num)) (team2oric : list num)
  (reward : list (list num))
  (st : list (list num) * list (list num) * list (list num) * list (list num)) (t : nat)
  : option (list (list num) * list (list num) * list (list num) * list (list num)) :=
  let '(fwd, bwd, oric2eq, eq2project) := st in
  let step stage x := e <- get2 eq2oric stage t ;; m <- get team2oric t ;;
                      Some (nadd (nadd x e) m) in
  fwd <- ic_forward num_projects step fwd ;;
  bwd <- ic_backward num_projects step bwd ;;
  ' (oric2eq, eq2project) <- for_up 0 num_projects (oric2eq, eq2project) (fun st p =>
    let '(oric2eq, eq2project) := st in
    a <- get2 fwd p 1 ;;
    b <- get2 bwd (p + 1) 0 ;;
    m <- get team2oric t ;;
    oric2eq <- set2 oric2eq p t (nsub m (nmin (nmin a b) n0)) ;;
    v <- get2 oric2eq p t ;;
    r <- get2 reward p t ;;
    eq2project <- set2 eq2project p t (nadd v r) ;;
    Some (oric2eq, eq2project)) ;;
  Some (fwd, bwd, oric2eq, eq2project).

(** update_or_inequality_constraint.hpp:56-110 *)
Definition oric_to_project_update (num_projects num_teams : nat) (eq2oric : list (list num))
  (team2oric : list num) (oric2eq eq2project reward : list (list num))
  : option (list (list num) * list (list num)) :=
  ' (_, _, oric2eq, eq2project) <- for_up 0 num_teams
      (repeat [n0; n0] (num_projects + 1), repeat [n0; n0] (num_projects + 1),
       oric2eq, eq2project)
      (oric_one num_projects eq2oric team2oric reward) ;;
  Some (oric2eq, eq2project).

(** update_or_inequality_constraint.hpp:125: initial value of the running minimum *)
Definition oric_cap : num := zn 1000000.

(** update_or_inequality_constraint.hpp:120-136 *)
Definition oric_to_team_update (eq2oric : list (list num)) (oric2team : list num)
  : option (list num) :=
  for_up 0 (length oric2team) oric2team (fun oric2team t =>
    v <- for_up 0 (length eq2oric) oric_cap (fun mv p =>
           e <- get2 eq2oric p t ;;
           Some (if nlt e mv then e else mv)) ;;
    set oric2team t v).
