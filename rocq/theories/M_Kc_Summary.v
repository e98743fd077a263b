(** * Totals printed by the KC-MWM front end: src/impa/Impa.py, class ImpaKcMwm.

    Everything printed by [pre_processing_analysis] and [results_analysis] that is a total of the
    assignment; the used capacities and their flag are in M_Kc_Py ([exceeding],
    [kc_final_exceeded]). *)
From Verif Require Import Num Arr M_Tsp_Run M_Ksat_Py M_Tsp_Post M_Kc_Py.
Local Open Scope nat_scope.

(** [z_value] "Total Value LHS", [z_teams] "Total number of selected teams", [z_matched] "Total number
    of Matched Projects", [z_all] "Matching All Projects to Teams", [z_weight] "Total Weight RHS" *)
Record kc_totals := { z_value : num; z_teams : nat; z_matched : nat; z_all : bool; z_weight : num }.

(** 1694-1701 and 2124-2136 *)
Definition total_value (reward : list num) (sel : list nat) : option num :=
  foldM (fun acc t => r <- get reward t ;; Some (nadd acc r)) sel n0.

(** 1762-1780: every matched pair counts *)
Definition pre_weight (R : list (list num)) (pairs : list (nat * nat)) : option num :=
  foldM (fun acc c => x <- get2 R (fst c) (snd c) ;; Some (nadd acc x)) pairs n0.

(** pre_processing_analysis, 1735-1796.  [P] is [num_projects], [R] is [reward_project] (one row per
    project).  The last two components are the numbers printed as "Total number of Unmatched
    Projects" (1748-1751, [np.setdiff1d]) and as "Team assigned to multiple Projects" (1790). *)
Definition kc_pre_totals (P : nat) (reward : list num) (R : list (list num)) (p : kc_pre)
  : option (kc_totals * nat * bool) :=
  v <- total_value reward (p_sel p) ;;
  w <- pre_weight R (p_pairs p) ;;
  Some ({| z_value := nopp v; z_teams := length (p_sel p); z_matched := length (p_pairs p);
           z_all := length (p_pairs p) =? P; z_weight := w |},
        length (filter (fun r => negb (mem r (map fst (p_pairs p)))) (seq 0 P)),
        nonempty (p_reused p)).

(** 2212-2222: one matched pair; [total_weight] and [total_weight_used_teams].  2215 raises when
    [post_processing_ic_combination] has no entry for the team. *)
Definition post_weight_step (pp : bool) (R : list (list num)) (p : kc_pre) (q : kc_post)
  (st : num * list nat) (c : nat * nat) : option (num * list nat) :=
  let '(acc, seen) := st in
  r <- (if mem (snd c) (p_reused p) && pp then kept_project (q_ic q) (snd c) else Some (fst c)) ;;
  if mem (snd c) (q_sel q) && negb (mem (snd c) seen)
  then x <- get2 R r (snd c) ;; Some (nadd acc x, seen ++ [snd c])
  else Some (acc, seen).

(** results_analysis, 2197-2232.  [project_array] gets one element per remaining team (2134), and its
    length is what is printed and compared with [num_projects] at 2204 and 2228. *)
Definition kc_post_totals (pp : bool) (P : nat) (reward : list num) (R : list (list num)) (p : kc_pre) (q : kc_post)
  : option kc_totals :=
  v <- total_value reward (q_sel q) ;;
  ' (w, _) <- foldM (post_weight_step pp R p q) (p_pairs p) (n0, []) ;;
  Some {| z_value := nopp v; z_teams := length (q_sel q); z_matched := length (q_sel q);
          z_all := length (q_sel q) =? P; z_weight := w |}.
