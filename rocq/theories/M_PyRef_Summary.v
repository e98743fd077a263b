(** * Model: the pure Python KC-MWM solver as an object: answers and totals.

    test/python_kc_mwm/src/graphical_model.py, driven as in main_pure_optimized.py:35-47.
    [prune_teams], [team_reward_generation], [pre_analysis], [check_match],
    [pre_processing_analysis] and [apply_post_processing] are, statement by statement, those of
    Impa.py with [post_process_option = 1], up to printed text, so their models are used.  The
    flags [test_flag] keep their default values. *)
From Verif Require Import Num Arr M_Tsp_Run M_Ksat_Py M_Tsp_Post M_Kc_Py M_Kc_Summary M_PyRef_Run.
Local Open Scope nat_scope.

(** python_kc_mwm graphical_model.py:32-142 [initialize], 368-405 [iterate], 407-419 [pre_analysis],
    597-606 [post_analysis], 710-767 [results_analysis] (whose list of results is local).
    Simplification as in [kc_call]: a [rew_team] that does not have one element per team fails. *)
Definition ref_kc_call (iters : nat) (flag : bool) (alpha thr : num) (pp : bool)
  (caps types : list nat) (rew_team : list num) (rew_proj : list (list num)) : option kc_answer :=
  o <- kc_initialize caps types ;;
  r0 <- get rew_proj 0 ;;
  let P := length r0 in
  let T := o_teams o in
  if (length rew_proj =? T) && forallb (fun r => length r =? P) rew_proj && (length rew_team =? T) then
    let R := transpose P rew_proj in
    ' (_, out, A) <- py_kc_reference iters flag alpha T (length caps) P caps (o_weights o) rew_team R ;;
    p <- kc_pre_analysis o thr A ;;
    q <- kc_post_analysis o pp 1 A out p ;;
    res <- kc_results o pp p q ;;
    Some {| a_obj := o; a_pre := p; a_post := q; a_results := res |}
  else None.

(** python_kc_mwm graphical_model.py:808-816: one matched pair.  Other than Impa.py:2212-2222 nothing
    remembers the teams already counted. *)
Definition ref_weight_step (pp : bool) (R : list (list num)) (p : kc_pre) (q : kc_post)
  (acc : num) (c : nat * nat) : option num :=
  r <- (if mem (snd c) (p_reused p) && pp then kept_project (q_ic q) (snd c) else Some (fst c)) ;;
  if mem (snd c) (q_sel q) then x <- get2 R r (snd c) ;; Some (nadd acc x) else Some acc.
(** python_kc_mwm graphical_model.py:732-741, 794-825 *)
Definition ref_post_totals (pp : bool) (P : nat) (reward : list num) (R : list (list num)) (p : kc_pre) (q : kc_post)
  : option kc_totals :=
  v <- total_value reward (q_sel q) ;;
  w <- foldM (ref_weight_step pp R p q) (p_pairs p) n0 ;;
  Some {| z_value := nopp v; z_teams := length (q_sel q); z_matched := length (q_sel q);
          z_all := length (q_sel q) =? P; z_weight := w |}.
