(** * Model: the demonstration programs examples/{Ksat,KcMwm,Tsp}/demo.cpp.

    Number of iterations, filtering flag and parameter are arguments (the programs have constants);
    decimal literals are exact.  What a program prints is a list of numbers. *)
From Verif Require Import Num Arr Spec M_InOut M_Runs M_Tsp_Run M_Tsp_Py.
Local Open Scope nat_scope.

(** a literal with eight decimals *)
Definition dec8 (z : Z) : Qc := Q2Qc (z # 100000000).

(** ** examples/Ksat/demo.cpp *)
(** 21 and 23-26: flattened row by row *)
Definition dk_used : list nat := [0; 2; 3; 4].
Definition dk_varconx : list (list nat) := [[1]; []; [0; 1]; [0; 1]; [0]].
(** 28 *)
Definition dk_sizes : list nat := [1; 0; 2; 2; 1].
(** 30, 32 *)
Definition dk_conx : list (list nat) := [[4; 2; 3]; [2; 0; 3]].
Definition dk_types : list (list Z) := [[-1; -1; -1]; [1; 1; -1]]%Z.
(** 34, 36-38 *)
Definition dk_metrics : list Qc := map dec8 [-266808398; -11790238; 437984813; -713066003; -215600797]%Z.
Definition dk_messages : list (list Qc) := map (map dec8)
  [[0; 0; 437984813; -713066003; -215600797]; [-266808398; 0; 437984813; -713066003; 0]]%Z.
(** 50-61: the object is used as in [WrapperKsat] (Wrapper.cpp:127-145) *)
Definition demo_ksat (iters : nat) (flag : bool) (alpha : num) : option (list num) :=
  wrapper_ksat iters 5 2 4 alpha flag dk_used (concat dk_varconx) dk_sizes (concat dk_conx) (concat dk_types)
    (map Fin dk_metrics) (concat (inj dk_messages)) 3.

(** ** examples/KcMwm/demo.cpp *)
(** 36-39 *)
Definition dm_reward_team : list Qc := map zq [-22; -31; -68; -39; -84]%Z.
Definition dm_reward_project : list (list Qc) := map (map zq) [[44; 1; 41; 10; 3]; [7; 17; 56; 98; 63]]%Z.
(** 46, 49, 53 (an array of ten elements, two of them not initialised explicitly: zero), 16, 19 *)
Definition dm_transition : list Qc := map zq [-22; -31; -68; -39; 0; 0; -31; -68; -39; -84]%Z.
Definition dm_weights : list (list nat) := [[2; 1; 1; 1; 0]; [0; 1; 1; 1; 2]].
Definition dm_nonzero : list nat := [0; 1; 2; 3; 1; 2; 3; 4; 0; 0].
Definition dm_max_state : list nat := [3; 3].
Definition dm_sizes : list nat := [4; 4].
(** 24-32, 59-68: the object is used as in [WrapperKcMwm] (Wrapper.cpp:30-49); printed is the sum of
    output and reward for every team *)
Definition demo_kc (iters : nat) (flag : bool) (alpha : num) : option (list num) :=
  ' (ext, _) <- wrapper_kc_mwm iters 2 5 2 (map Fin dm_transition) dm_max_state (map Fin dm_reward_team)
                  (concat (inj dm_reward_project)) (concat dm_weights) dm_nonzero dm_sizes (list_max dm_sizes) flag alpha ;;
  for_up 0 5 [] (fun out i =>
    x <- get ext i ;; r <- get (map Fin dm_reward_team) i ;; Some (out ++ [nadd x r])).

(** ** examples/Tsp/demo.cpp *)
(** 24-26 *)
Definition dt_edges : list (nat * nat) :=
  [(0, 1); (0, 2); (0, 3); (0, 4); (1, 0); (1, 2); (1, 3); (1, 4); (2, 0); (2, 1);
   (2, 3); (2, 4); (3, 0); (3, 1); (3, 2); (3, 4); (4, 0); (4, 1); (4, 2); (4, 3)].
(** 29-34 *)
Definition dt_matrix : list (list Qc) := map (map dec8)
  [[0; 15175578773; 5618610887; 71831915651; 29302503715];
   [15175578773; 0; 56842312860; 8325740946; 54545357536];
   [5618610887; 56842312860; 0; 44555107005; 88809445172];
   [71831915651; 8325740946; 44555107005; 0; 71905730714];
   [29302503715; 54545357536; 88809445172; 71905730714; 0]]%Z.
(** 37-40 *)
Definition dt_costs : list Qc := map dec8
  [15175578773; 5618610887; 71831915651; 29302503715; 15175578773; 56842312860; 8325740946;
   54545357536; 5618610887; 56842312860; 44555107005; 88809445172; 71831915651; 8325740946;
   44555107005; 71905730714; 29302503715; 54545357536; 88809445172; 71905730714]%Z.
(** 43-53 *)
Definition dt_degree : list (list Qc) := map (map dec8)
  [[15175578773; 15175578773; 0; 0; 0]; [5618610887; 0; 5618610887; 0; 0];
   [71831915651; 0; 0; 71831915651; 0]; [29302503715; 0; 0; 0; 29302503715];
   [15175578773; 15175578773; 0; 0; 0]; [0; 56842312860; 56842312860; 0; 0];
   [0; 8325740946; 0; 8325740946; 0]; [0; 54545357536; 0; 0; 54545357536];
   [5618610887; 0; 5618610887; 0; 0]; [0; 56842312860; 56842312860; 0; 0];
   [0; 0; 44555107005; 44555107005; 0]; [0; 0; 88809445172; 0; 88809445172];
   [71831915651; 0; 0; 71831915651; 0]; [0; 8325740946; 0; 8325740946; 0];
   [0; 0; 44555107005; 44555107005; 0]; [0; 0; 0; 71905730714; 71905730714];
   [29302503715; 0; 0; 0; 29302503715]; [0; 54545357536; 0; 0; 54545357536];
   [0; 0; 88809445172; 0; 88809445172]; [0; 0; 0; 71905730714; 71905730714]]%Z.
(** 12-22 and 62-80: threshold -0.0001, no reset, at most 50 failures and 50 augmentations; messages
    and degree costs come from the same array (59, 60), which [initialize] copies.  [ord] is the order
    of the hash map; at most [fuel] rounds of the augmentation are run. *)
Definition demo_tsp (fuel iters : nat) (flag : bool) (alpha : num) (ord : list nat -> list nat) : option outcome :=
  inp <- tsp_process_inputs 5 20 (flat_edges dt_edges) (map Fin dt_costs) (concat (inj dt_matrix))
           (concat (inj dt_degree)) (concat (inj dt_degree)) ;;
  tsp_solve fuel (call_params iters 5 20 true false flag alpha (Fin (Q2Qc (-1 # 10000))) 50 inp ord) 50.
