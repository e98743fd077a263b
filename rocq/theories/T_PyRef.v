(** * Property C39: the pure Python implementation and the C++ library agree, update by update.

    Every theorem has the form "both succeed and return the same matrix".  Where the full statement
    (all well-formed inputs) fails, it is written out as [c39_...], refuted by a witness, and proved
    under the extra hypotheses ([_partial]). *)
From Verif Require Import Num NumFacts Arr ArrFacts Spec MinSum MinSumFacts M_Tsp_Constraints
  M_Equality M_Filter M_InOut M_Knapsack M_Kc_Trellis M_Ksat M_PyRef M_PyRef_Kc M_PyRef_Ksat
  P_Knapsack P_PyRef P_PyRef_Kc P_PyRef_Ksat.
Local Open Scope nat_scope.

(** two computations that both succeed with the same result *)
Definition agree {A} (x y : option A) : Prop := exists r, x = Some r /\ y = Some r.
Definition views (m : option (list (list num))) : option (list (list nview)) :=
  option_map (map (map view)) m.
Definition ints (m : list (list Z)) : list (list Qc) := map (map zq) m.
Definition vints (m : list (list Z)) : list (list nview) :=
  map (map (fun z => VFin (inject_Z z))) m.

(** ** TSP *)

(** degree constraints: every node has an edge in each direction *)
Definition c39_degree : Prop := forall (k : nat) (E : list (nat * nat)) (M : list (list Qc)),
  shape (length E) k M -> no_self_loop E ->
  (forall u, u < k -> from_node E u <> [] /\ into_node E u <> []) ->
  agree (py_degree_update k (length E) E (inj M))
        (degree_update k (length E) E (inj M) (np_zeros (length E) k)).
(** a node with a single edge: [np.min] of nothing raises, C++ stores minus infinity *)
Theorem C39_degree_refuted : ~ c39_degree.
Proof.
  intros H. destruct (H 2 [(0,1);(1,0)] (ints [[1;2];[3;4]]%Z)) as (r & E & _).
  - split; [reflexivity|repeat constructor].
  - repeat constructor; cbn; congruence.
  - intros [|[|u]] Hu; try lia; split; cbn; congruence.
  - vm_compute in E. discriminate.
Qed.
Theorem C39_degree_partial : forall (k : nat) (E : list (nat * nat)) (M : list (list Qc)),
  shape (length E) k M -> no_self_loop E ->
  (forall u, u < k -> 2 <= length (from_node E u) /\ 2 <= length (into_node E u)) ->
  agree (py_degree_update k (length E) E (inj M))
        (degree_update k (length E) E (inj M) (np_zeros (length E) k)).
Proof.
  intros k E M HM Hns Htwo. destruct (degree_same (length E) k M E) as (R & A & B & _); auto.
  exists R; auto.
Qed.
Definition edges3 : list (nat * nat) := [(0,1);(0,2);(1,0);(1,2);(2,0);(2,1)].
Definition msgs3 : list (list Qc) := ints [[3;5;0];[-2;0;7];[4;1;0];[0;-6;2];[9;0;-1];[0;8;6]]%Z.
Example C39_degree_example :
  (forall u, u < 3 -> 2 <= length (from_node edges3 u) /\ 2 <= length (into_node edges3 u)) /\
  views (py_degree_update 3 6 edges3 (inj msgs3))
  = Some (vints [[2;-8;0];[-3;0;-2];[-9;6;0];[0;-1;-7];[-4;0;-6];[0;-5;1]])%Z.
Proof. split; [|vm_compute; reflexivity]. intros [|[|[|u]]] Hu; try lia; split; cbn; lia. Qed.

(** subtour constraints *)
Definition c39_subtour : Prop := forall (n : nat) (cuts : list (list nat)) (M : list (list Qc)),
  shape (length cuts) n M ->
  Forall (fun d => d <> [] /\ NoDup d /\ Forall (fun e => e < n) d) cuts ->
  agree (py_subtour_update n cuts (inj M))
        (subtour_update n cuts (inj M) (np_zeros (length cuts) n)).
(** a cut of one edge: [min] of nothing raises *)
Theorem C39_subtour_refuted : ~ c39_subtour.
Proof.
  intros H. destruct (H 2 [[1]] (ints [[1;2]]%Z)) as (r & E & _).
  - split; [reflexivity|repeat constructor].
  - repeat constructor; cbn; try congruence; tauto.
  - vm_compute in E. discriminate.
Qed.
Theorem C39_subtour_partial : forall (n : nat) (cuts : list (list nat)) (M : list (list Qc)),
  shape (length cuts) n M ->
  Forall (fun d => 2 <= length d /\ NoDup d /\ Forall (fun e => e < n) d) cuts ->
  agree (py_subtour_update n cuts (inj M))
        (subtour_update n cuts (inj M) (np_zeros (length cuts) n)).
Proof.
  intros n cuts M HM HF. destruct (subtour_same n (length cuts) M cuts) as (R & A & B & _); auto.
  exists R; auto.
Qed.
Example C39_subtour_example :
  let cuts := [[0;2;3];[1;4]] in
  let M := ints [[5;9;-2;7;9];[9;3;9;9;4]]%Z in
  Forall (fun d => 2 <= length d /\ NoDup d /\ Forall (fun e => e < 5) d) cuts /\
  views (py_subtour_update 5 cuts (inj M)) = Some (vints [[0;0;-5;0;0];[0;-4;0;0;-3]])%Z.
Proof.
  split; [|vm_compute; reflexivity].
  repeat constructor; cbn; try lia; intros H; repeat (destruct H as [H|H]; try lia).
Qed.

(** edge to degree, relaxed graph *)
Theorem C39_edge_to_degree_relaxed : forall (k : nat) (E : list (nat * nat)) (M C : list (list Qc))
    (out : list (list num)),
  shape (length E) k M -> shape (length E) k C -> shape (length E) k out ->
  edges_in k E -> no_self_loop E ->
  agree (py_edge_to_degree_relaxed E (inj C) (inj M))
        (edge_to_degree_relaxed (length E) E (inj C) (inj M) out).
Proof.
  intros k E M C out HM HC HO Hin Hns.
  destruct (relaxed_same (length E) k M C E out) as (R & A & B & _); auto. exists R; auto.
Qed.
Example C39_edge_to_degree_relaxed_example :
  let E := [(0,1);(1,2)] in
  let M := ints [[3;5;0];[0;7;-2]]%Z in
  let C := ints [[10;10;0];[0;20;20]]%Z in
  edges_in 3 E /\ no_self_loop E /\
  views (py_edge_to_degree_relaxed E (inj C) (inj M)) = Some (vints [[15;13;0];[0;18;27]])%Z.
Proof. split; [|split; [|vm_compute; reflexivity]]; repeat constructor; cbn; lia. Qed.

(** edge to degree, augmented graph: [S] subtour constraints *)
Definition c39_augmented : Prop := forall (k : nat) (E : list (nat * nat)) (M Sub C : list (list Qc)),
  shape (length E) k M -> Sub <> [] -> shape (length Sub) (length E) Sub -> shape (length E) k C ->
  edges_in k E -> no_self_loop E ->
  agree (py_edge_to_degree_augmented E (inj C) (inj M) (inj Sub))
        (edge_to_degree_augmented (length E) (inj M) (inj Sub) E (inj C) (np_zeros (length E) k)).
(** a non-zero entry at a node that is not an end of the edge: Python keeps it, C++ does not *)
Theorem C39_augmented_refuted : ~ c39_augmented.
Proof.
  intros H. destruct (H 3 [(0,1)] (ints [[1;2;5]]%Z) (ints [[7]]%Z) (ints [[0;0;0]]%Z)) as (r & E1 & E2).
  - split; [reflexivity|repeat constructor].
  - discriminate.
  - split; [reflexivity|repeat constructor].
  - split; [reflexivity|repeat constructor].
  - repeat constructor; cbn; lia.
  - repeat constructor; cbn; congruence.
  - vm_compute in E1, E2. congruence.
Qed.
(** the messages of an edge are zero at the nodes it does not touch *)
Definition zero_off_ends (k : nat) (E : list (nat * nat)) (M : list (list Qc)) : Prop :=
  forall e u v w, nth_error E e = Some (u, v) -> w < k -> w <> u -> w <> v -> qat M e w = 0%Qc.
Theorem C39_augmented_partial : forall (k : nat) (E : list (nat * nat)) (M Sub C : list (list Qc)),
  shape (length E) k M -> Sub <> [] -> shape (length Sub) (length E) Sub -> shape (length E) k C ->
  edges_in k E -> no_self_loop E -> zero_off_ends k E M -> zero_off_ends k E C ->
  agree (py_edge_to_degree_augmented E (inj C) (inj M) (inj Sub))
        (edge_to_degree_augmented (length E) (inj M) (inj Sub) E (inj C) (np_zeros (length E) k)).
Proof.
  intros k E M Sub C HM Hne HS HC Hin Hns ZM ZC.
  destruct (augmented_same (length E) k (length Sub) M Sub C E) as (R & A & B & _); auto.
  { destruct Sub; cbn; congruence. }
  exists R; auto.
Qed.
Example C39_augmented_example :
  let E := [(0,1);(1,2)] in
  let M := ints [[3;5;0];[0;7;-2]]%Z in
  let C := ints [[10;10;0];[0;20;20]]%Z in
  let Sub := ints [[100;0];[300;200]]%Z in
  zero_off_ends 3 E M /\ zero_off_ends 3 E C /\
  views (py_edge_to_degree_augmented E (inj C) (inj M) (inj Sub)) = Some (vints [[415;413;0];[0;218;227]])%Z.
Proof.
  split; [|split; [|vm_compute; reflexivity]];
    intros [|[|e]] u v w H Hw H1 H2; try (destruct e; discriminate); injection H as <- <-;
    destruct w as [|[|[|w]]]; try lia; reflexivity.
Qed.

(** edge to subtour *)
Definition c39_edge_to_subtour : Prop := forall (k : nat) (E : list (nat * nat)) (M Sub : list (list Qc))
    (cost : list Qc) (cuts : list (list nat)),
  shape (length E) k M -> cuts <> [] -> shape (length cuts) (length E) Sub -> length cost = length E ->
  edges_in k E -> no_self_loop E -> Forall (Forall (fun e => e < length E)) cuts ->
  agree (py_edge_to_subtour (length E) cuts (map Fin cost) (inj M) (inj Sub))
        (edge_to_subtour (length E) cuts (map Fin cost) (inj M) (inj Sub) E).
Theorem C39_edge_to_subtour_refuted : ~ c39_edge_to_subtour.
Proof.
  intros H. destruct (H 3 [(0,1)] (ints [[1;2;5]]%Z) (ints [[7]]%Z) (map zq [9]%Z) [[0]]) as (r & E1 & E2).
  - split; [reflexivity|repeat constructor].
  - discriminate.
  - split; [reflexivity|repeat constructor].
  - reflexivity.
  - repeat constructor; cbn; lia.
  - repeat constructor; cbn; congruence.
  - repeat constructor.
  - vm_compute in E1, E2. congruence.
Qed.
Theorem C39_edge_to_subtour_partial : forall (k : nat) (E : list (nat * nat)) (M Sub : list (list Qc))
    (cost : list Qc) (cuts : list (list nat)),
  shape (length E) k M -> cuts <> [] -> shape (length cuts) (length E) Sub -> length cost = length E ->
  edges_in k E -> no_self_loop E -> Forall (Forall (fun e => e < length E)) cuts ->
  zero_off_ends k E M ->
  agree (py_edge_to_subtour (length E) cuts (map Fin cost) (inj M) (inj Sub))
        (edge_to_subtour (length E) cuts (map Fin cost) (inj M) (inj Sub) E).
Proof.
  intros k E M Sub cost cuts HM Hne HS Hc Hin Hns HF ZM.
  destruct (edge_to_subtour_same (length E) k (length cuts) M Sub cost E cuts) as (R & A & B & _); auto.
  { destruct cuts; cbn; congruence. }
  exists R; auto.
Qed.
Example C39_edge_to_subtour_example :
  let E := [(0,1);(1,2);(2,0)] in
  let M := ints [[3;5;0];[0;7;-2];[1;0;1]]%Z in
  let Sub := ints [[100;0;10];[300;200;20]]%Z in
  zero_off_ends 3 E M /\
  views (py_edge_to_subtour 3 [[0;2];[1;2]] (map Fin (map zq [1000;2000;3000]%Z)) (inj M) (inj Sub))
  = Some (vints [[1308;0;3022];[0;2005;3012]])%Z.
Proof.
  split; [|vm_compute; reflexivity].
  intros [|[|[|e]]] u v w H Hw H1 H2; try (destruct e; discriminate); injection H as <- <-;
    destruct w as [|[|[|w]]]; try lia; reflexivity.
Qed.

(** outputs *)
Theorem C39_tsp_outputs : forall (n k : nat) (M Sub : list (list Qc)) (out : list num),
  shape n k M -> length out = n ->
  extrinsic_relaxed (inj M) out = Some (py_extrinsic_relaxed (inj M)) /\
  (Sub <> [] -> shape (length Sub) n Sub ->
   agree (py_extrinsic_augmented (inj M) (inj Sub)) (extrinsic_augmented (inj M) (inj Sub) out)).
Proof.
  intros n k M Sub out HM HO. split; [eapply extrinsic_relaxed_same; eauto|]. intros Hne HS.
  destruct (extrinsic_augmented_same n k (length Sub) M Sub out) as (R & A & B & _); auto.
  { destruct Sub; cbn; congruence. }
  exists R; auto.
Qed.
Example C39_tsp_outputs_example :
  let M := ints [[3;5;0];[0;7;-2]]%Z in
  map view (py_extrinsic_relaxed (inj M)) = map (fun z => VFin (inject_Z z)) [8;5]%Z /\
  option_map (map view) (py_extrinsic_augmented (inj M) (inj (ints [[100;0];[300;200]]%Z)))
  = Some (map (fun z => VFin (inject_Z z)) [408;205])%Z.
Proof. split; vm_compute; reflexivity. Qed.

(** ** Filtering, over a whole run: [raws] are the raw messages of iterations 0, 1, ...;
    [old0], [out0] are the initial contents of the C++ buffers *)
Definition c39_filtering : Prop := forall (flag : bool) (a : Qc) (n k : nat) (raws : list (list (list Qc)))
    (old0 out0 : list (list Qc)),
  Forall (shape n k) raws -> shape n k old0 -> shape n k out0 ->
  exists R O', filter_run flag (Fin a) n 0 (map inj raws) (inj old0) (inj out0) = Some (R, O') /\
    py_filter_run flag (Fin a) 0 (map inj raws) None (inj out0) = Some R.
(** filtering on with alpha = 0: C++ copies the messages, Python reads an unassigned variable *)
Theorem C39_filtering_refuted : ~ c39_filtering.
Proof.
  intros H. destruct (H true 0%Qc 1 1 [ints [[1]]%Z] (ints [[0]]%Z) (ints [[0]]%Z)) as (R & O' & _ & E).
  1-3: repeat constructor.
  vm_compute in E. discriminate.
Qed.
Theorem C39_filtering_partial : forall (flag : bool) (a : Qc) (n k : nat) (raws : list (list (list Qc)))
    (old0 out0 : list (list Qc)),
  (flag = true -> a <> 0%Qc) ->
  Forall (shape n k) raws -> shape n k old0 -> shape n k out0 ->
  exists R O', filter_run flag (Fin a) n 0 (map inj raws) (inj old0) (inj out0) = Some (R, O') /\
    py_filter_run flag (Fin a) 0 (map inj raws) None (inj out0) = Some R.
Proof.
  intros flag a n k raws old0 out0 Ha HR HO Hout.
  apply (filter_run_same flag a n k raws Ha HR 0 old0 out0 None); auto. intros; lia.
Qed.
Example C39_filtering_example :
  let raws := [ints [[8;4]]; ints [[0;2]]; ints [[4;0]]]%Z in
  Forall (shape 1 2) raws /\
  views (py_filter_run true (Fin (Q2Qc (1 # 2))) 0 (map inj raws) None (inj (ints [[0;0]]%Z)))
  = Some [[VFin 3; VFin 1]].
Proof. split; [repeat constructor|vm_compute; reflexivity]. Qed.

(** ** KC-MWM *)

(** departments: weights [ws], capacity [cap] *)
Theorem C39_department : forall (T cap : nat) (ws : list nat) (ms : list Qc) (nz : list nat) (out : list num),
  length ws = T -> length ms = T -> length out = T ->
  nz = participants T ws -> nz <> [] -> Forall (fun w => w <= cap) ws ->
  agree (py_department T cap (map Fin ms) ws)
        (department_update T cap nz (length nz) ws (map Fin ms) out).
Proof.
  intros T cap ws ms nz out HW HM HO -> Hne Hcap.
  destruct (department_same T cap ws ms HW HM) with (out := out) as (R & A & B & _); auto.
  { intros t Ht. rewrite Forall_forall in Hcap. apply Hcap, nth_In. lia. }
  exists R; auto.
Qed.
Example C39_department_example :
  let ws := [2; 0; 1; 2; 3] in
  let ms := map zq [-3; 5; -1; -4; -6]%Z in
  participants 5 ws = [0; 2; 3; 4] /\ Forall (fun w => w <= 4) ws /\
  option_map (map view) (py_department 5 4 (map Fin ms) ws)
  = Some (map (fun z => VFin (inject_Z z)) [3; 0; 1; 4; 6])%Z.
Proof. split; [reflexivity|]. split; [repeat constructor; lia|]. vm_compute. reflexivity. Qed.

(** team to department: [W] is the weight matrix *)
Definition c39_team : Prop := forall (D T : nat) (W : list (list nat)) (reward oric : list Qc) (X : list (list Qc)),
  shape D T W -> length reward = T -> length oric = T -> shape D T X ->
  Forall (fun w => participants T w <> []) W ->
  agree (py_team_to_department D T W (map Fin reward) (inj X) (map Fin oric))
        (team_to_knapsack D T (map (participants T) W) (np_zeros D T) (map Fin reward) (inj X) (map Fin oric)).
(** a team in three departments *)
Theorem C39_team_to_department_refuted : ~ c39_team.
Proof.
  intros H. destruct (H 3 1 [[1];[1];[1]] (map zq [1]%Z) (map zq [0]%Z) (ints [[10];[20];[30]]%Z)) as (r & E1 & E2).
  - split; [reflexivity|repeat constructor].
  - reflexivity.
  - reflexivity.
  - split; [reflexivity|repeat constructor].
  - repeat constructor; cbn; congruence.
  - vm_compute in E1, E2. congruence.
Qed.
Theorem C39_team_to_department_partial : forall (D T : nat) (W : list (list nat)) (reward oric : list Qc)
    (X : list (list Qc)),
  shape D T W -> length reward = T -> length oric = T -> shape D T X ->
  Forall (fun w => participants T w <> []) W ->
  (* no team in three departments *)
  (forall d1 d2 d3 l, d1 < d2 < d3 -> d3 < D ->
     ~ (In l (participants T (nth d1 W [])) /\ In l (participants T (nth d2 W [])) /\
        In l (participants T (nth d3 W [])))) ->
  agree (py_team_to_department D T W (map Fin reward) (inj X) (map Fin oric))
        (team_to_knapsack D T (map (participants T) W) (np_zeros D T) (map Fin reward) (inj X) (map Fin oric)).
Proof.
  intros D T W reward oric X [LW FW] Hr Ho HX Hne H3.
  destruct (team_same D T W reward oric X) as (R & A & B & _); auto; [|exists R; auto].
  assert (EN : forall d, d < D -> nth d (map (part T) W) [] = participants T (nth d W [])).
  { intros d Hd. rewrite (nth_indep _ [] (part T [])) by (rewrite map_length; lia).
    rewrite map_nth. reflexivity. }
  intros d1 d2 d3 l D1 D2 D3 I1 I2 I3. rewrite EN in I1, I2, I3 by auto.
  destruct (lt_eq_lt_dec d1 d2) as [[L12|E12]|L12]; auto;
    destruct (lt_eq_lt_dec d1 d3) as [[L13|E13]|L13]; auto;
    destruct (lt_eq_lt_dec d2 d3) as [[L23|E23]|L23]; auto; exfalso; try lia.
  - apply (H3 d1 d2 d3 l); auto.
  - apply (H3 d1 d3 d2 l); auto.
  - apply (H3 d3 d1 d2 l); auto.
  - apply (H3 d2 d1 d3 l); auto.
  - apply (H3 d2 d3 d1 l); auto.
  - apply (H3 d3 d2 d1 l); auto.
Qed.
Example C39_team_to_department_example :
  let W := [[2;1;0];[0;1;3]] in
  let X := ints [[10;20;0];[0;40;50]]%Z in
  shape 2 3 W /\ Forall (fun w => participants 3 w <> []) W /\
  views (py_team_to_department 2 3 W (map Fin (map zq [1;2;3]%Z)) (inj X) (map Fin (map zq [100;200;300]%Z)))
  = Some (vints [[101;242;0];[0;222;303]])%Z.
Proof.
  split; [split; [reflexivity|repeat constructor]|]. split; [repeat constructor; cbn; congruence|].
  vm_compute. reflexivity.
Qed.

(** project constraints; Python has a flag for [P <> T] ("unbalanced") *)
Definition c39_project : Prop := forall (unbalanced : bool) (P T : nat) (M : list (list Qc)) (out : list (list num)),
  shape P T M -> shape P T out -> T <> 0 -> unbalanced = negb (P =? T) ->
  agree (py_project_update unbalanced (inj M)) (project_update T (inj M) out).
(** as many projects as teams: Python requires exactly one team, C++ at most one *)
Theorem C39_project_refuted : ~ c39_project.
Proof.
  intros H. destruct (H false 2 2 (ints [[1;2];[3;4]]%Z) (np_zeros 2 2)) as (r & E1 & E2).
  1-2: split; [reflexivity|repeat constructor]. 1-2: auto.
  vm_compute in E1, E2. congruence.
Qed.
(** and for one team Python raises *)
Theorem C39_project_one_team_refuted :
  py_project_update true (inj (ints [[1]]%Z)) = None /\
  views (project_update 1 (inj (ints [[1]]%Z)) (np_zeros 1 1)) = Some (vints [[0]])%Z.
Proof. split; vm_compute; reflexivity. Qed.
Theorem C39_project_partial : forall (P T : nat) (M : list (list Qc)) (out : list (list num)),
  shape P T M -> shape P T out -> 2 <= T ->
  agree (py_project_update true (inj M)) (project_update T (inj M) out).
Proof.
  intros P T M out HM HO HT. destruct (project_same P T M out) as (R & A & B & _); auto. exists R; auto.
Qed.
(** what Python computes for [P = T]: the messages of "exactly one team" *)
Theorem C39_project_balanced : forall (P T : nat) (M : list (list Qc)),
  shape P T M -> 2 <= T ->
  exists R, py_project_update false (inj M) = Some R /\ shape P T R /\
    forall p t, p < P -> t < T -> exists v, get2 R p t = Some v /\
      minsum_message exactly_one (nth p M []) t v.
Proof.
  intros P T M HM HT. destruct (py_project_ok false P T M) as (R & E & SR & G); auto.
  exists R. split; auto. split; auto. intros p t Hp Ht. eexists; split; [apply G; auto|].
  unfold project_val, py_constraint_rule. apply exactly_one_message.
  destruct HM as [LM FM]. rewrite Forall_forall in FM. rewrite FM; auto. apply nth_In. lia.
Qed.
Example C39_project_example :
  let M := ints [[5;-2;7];[1;2;3]]%Z in
  views (py_project_update true (inj M)) = Some (vints [[2;0;2];[0;0;0]])%Z /\
  views (py_project_update false (inj M)) = Some (vints [[2;-5;2];[-2;-1;-1]])%Z.
Proof. split; vm_compute; reflexivity. Qed.

(** coupling constraints *)
Definition c39_oric : Prop := forall (P T : nat) (M R : list (list Qc)) (team : list Qc) (o1 o2 : list (list num)),
  shape P T M -> shape P T R -> length team = T -> P <> 0 -> shape P T o1 -> shape P T o2 ->
  agree (py_oric_to_project P T (inj M) (map Fin team) (inj R))
        (oric_to_project_update P T (inj M) (map Fin team) o1 o2 (inj R)).
(** a single project: the minimum over the other projects is over nothing *)
Theorem C39_oric_refuted : ~ c39_oric.
Proof.
  intros H. destruct (H 1 1 (ints [[1]]%Z) (ints [[2]]%Z) (map zq [3]%Z) (np_zeros 1 1) (np_zeros 1 1)) as (r & E1 & _).
  1,2,5,6: split; [reflexivity|repeat constructor]. 1-2: auto.
  vm_compute in E1. discriminate.
Qed.
Theorem C39_oric_partial : forall (P T : nat) (M R : list (list Qc)) (team : list Qc) (o1 o2 : list (list num)),
  shape P T M -> shape P T R -> length team = T -> 2 <= P -> shape P T o1 -> shape P T o2 ->
  agree (py_oric_to_project P T (inj M) (map Fin team) (inj R))
        (oric_to_project_update P T (inj M) (map Fin team) o1 o2 (inj R)).
Proof.
  intros P T M R team o1 o2 HM HR Ht HP H1 H2.
  destruct (oric_same P T M R team o1 o2) as (A & B & E & E' & _); auto. exists (A, B); auto.
Qed.
Example C39_oric_example :
  let M := ints [[4;-2];[3;5]]%Z in
  option_map (fun p => (map (map view) (fst p), map (map view) (snd p)))
    (py_oric_to_project 2 2 (inj M) (map Fin (map zq [1;-6]%Z)) (inj (ints [[100;200];[300;400]]%Z)))
  = Some (vints [[1;-5];[1;2]], vints [[101;195];[301;402]])%Z.
Proof. vm_compute. reflexivity. Qed.

(** coupling to team *)
Definition c39_oric_to_team : Prop := forall (P T : nat) (M : list (list Qc)) (out : list num),
  shape P T M -> P <> 0 -> length out = T ->
  agree (py_oric_to_team (inj M)) (oric_to_team_update (inj M) out).
(** all entries above the C++ start value 1000000 *)
Theorem C39_oric_to_team_refuted : ~ c39_oric_to_team.
Proof.
  intros H. destruct (H 1 1 (ints [[2000000]]%Z) [n0]) as (r & E1 & E2).
  - split; [reflexivity|repeat constructor].
  - auto.
  - reflexivity.
  - vm_compute in E1, E2. congruence.
Qed.
Theorem C39_oric_to_team_partial : forall (P T : nat) (M : list (list Qc)) (out : list num),
  shape P T M -> P <> 0 -> length out = T ->
  (forall t, t < T -> exists p, p < P /\ (qat M p t <= zq 1000000)%Qc) ->
  agree (py_oric_to_team (inj M)) (oric_to_team_update (inj M) out).
Proof.
  intros P T M out HM HP HO HB. destruct (oric_team_same P T M out) as (R & A & B); auto. exists R; auto.
Qed.
Example C39_oric_to_team_example :
  let M := ints [[4;-2;2000000];[3;5;6]]%Z in
  option_map (map view) (py_oric_to_team (inj M)) = Some (map (fun z => VFin (inject_Z z)) [3;-2;6])%Z.
Proof. vm_compute. reflexivity. Qed.

(** sums: team to coupling, project to coupling, outputs (C++ stores the matrix row after row) *)
Theorem C39_kc_sums : forall (D P T : nat) (X A B R : list (list Qc)) (reward o : list Qc)
    (out : list num) (out2 : list (list num)) (out3 : list num),
  shape D T X -> D <> 0 -> shape P T A -> shape P T B -> shape P T R ->
  length reward = T -> length o = T -> length out = T -> shape P T out2 -> length out3 = P * T ->
  agree (py_team_to_oric (inj X) (map Fin reward)) (team_to_oric_update T (inj X) out (map Fin reward)) /\
  agree (py_extrinsic_team (inj X) (map Fin o)) (extrinsic_output_team (inj X) (map Fin o) out) /\
  agree (py_project_to_oric (inj A) (inj R)) (project_to_oric_update (inj A) out2 (inj R)) /\
  agree (option_map (@concat num) (py_intrinsic_mwm (inj A) (inj B) (inj R)))
        (intrinsic_out_mwm T (inj A) (inj B) (inj R) out3).
Proof.
  intros D P T X A B R reward o out out2 out3 HX HD HA HB HR Hr Ho Hout H2 H3.
  destruct (team_to_oric_same D T X reward out) as (R1 & E1 & E1' & _); auto.
  destruct (extrinsic_team_same D T X o out) as (R2 & E2 & E2' & _); auto.
  destruct (project_to_oric_same P T A R out2) as (R3 & E3 & E3' & _); auto.
  destruct (intrinsic_same P T A B R out3) as (R4 & E4 & _ & E4'); auto.
  split; [exists R1; auto|]. split; [exists R2; auto|]. split; [exists R3; auto|].
  exists (concat R4). rewrite E4. auto.
Qed.
Example C39_kc_sums_example :
  let X := ints [[1;2];[10;20]]%Z in
  option_map (map view) (py_team_to_oric (inj X) (map Fin (map zq [100;200]%Z)))
    = Some (map (fun z => VFin (inject_Z z)) [111;222])%Z /\
  views (py_intrinsic_mwm (inj X) (inj (ints [[3;4];[5;6]]%Z)) (inj (ints [[1000;2000];[3000;4000]]%Z)))
    = Some (vints [[1004;2006];[3015;4026]])%Z.
Proof. split; vm_compute; reflexivity. Qed.

(** ** K-SAT *)

(** clauses of [k] literals over [nv] variables *)
Theorem C39_ksat_clause : forall (nv k : nat) (M : list (list Qc)) (out : list (list num))
    (conns : list (list nat)) (types : list (list Z)),
  shape (length conns) nv M -> shape (length conns) nv out -> length types = length conns ->
  (forall c conx tys, nth_error conns c = Some conx -> nth_error types c = Some tys -> clause_wf nv k conx tys) ->
  agree (py_ksat_update nv (length conns) (inj M) conns types)
        (ksat_update (length conns) k (inj M) out conns types).
Proof.
  intros nv k M out conns types HM HO LT Hwf.
  destruct (ksat_same (length conns) nv k M out conns types) as (R & A & B & _); auto. exists R; auto.
Qed.
Example C39_ksat_clause_example :
  let conns := [[0;2;3];[1;2;0]] in
  let types := [[1;-1;1];[-1;-1;1]]%Z in
  let M := ints [[5;0;-2;-3];[-4;3;6;0]]%Z in
  (forall c conx tys, nth_error conns c = Some conx -> nth_error types c = Some tys -> clause_wf 4 3 conx tys) /\
  views (py_ksat_update 4 2 (inj M) conns types) = Some (vints [[0;0;0;-2];[0;0;0;0]])%Z.
Proof.
  split; [|vm_compute; reflexivity].
  intros [|[|c]] conx tys H1 H2; try (destruct c; discriminate); injection H1 as <-; injection H2 as <-;
    (split; [reflexivity|]; split; [reflexivity|]; split; [|split]);
    try (repeat constructor; cbn; lia); repeat constructor; cbn; try lia; unfold pm1; auto.
Qed.

(** variables: [cost] the incoming metrics, [vconns v] the clauses of variable [v] *)
Definition c39_variable : Prop := forall (nc nv : nat) (M : list (list Qc)) (cost : list Qc) (used : list nat)
    (vconns : list (list nat)) (out : list (list num)),
  shape nc nv M -> shape nc nv out -> length cost = nv -> length vconns = nv ->
  Forall (fun v => v < nv) used ->
  (forall v l, nth_error vconns v = Some l -> NoDup l /\ Forall (fun c => c < nc) l) ->
  agree (py_variable_update nv nc (inj M) used (map Fin cost) vconns)
        (variable_update nv (inj M) out used (map Fin cost) vconns).
(** a non-zero message from a clause that does not contain the variable *)
Theorem C39_variable_refuted : ~ c39_variable.
Proof.
  intros H. destruct (H 2 1 (ints [[1];[2]]%Z) (map zq [0]%Z) [0] [[0]] (np_zeros 2 1)) as (r & E1 & E2).
  1-2: split; [reflexivity|repeat constructor]. 1-2: reflexivity.
  - repeat constructor.
  - intros [|v] l E; [injection E as <-|destruct v; discriminate].
    split; repeat constructor; cbn; tauto.
  - vm_compute in E1, E2. congruence.
Qed.
Theorem C39_variable_partial : forall (nc nv : nat) (M : list (list Qc)) (cost : list Qc) (used : list nat)
    (vconns : list (list nat)) (out : list (list num)),
  shape nc nv M -> shape nc nv out -> length cost = nv -> length vconns = nv ->
  Forall (fun v => v < nv) used ->
  (forall v l, nth_error vconns v = Some l -> NoDup l /\ Forall (fun c => c < nc) l) ->
  (* clauses send nothing to variables they do not contain *)
  (forall v l c, In v used -> nth_error vconns v = Some l -> c < nc -> ~ In c l -> qat M c v = 0%Qc) ->
  agree (py_variable_update nv nc (inj M) used (map Fin cost) vconns)
        (variable_update nv (inj M) out used (map Fin cost) vconns).
Proof.
  intros nc nv M cost used vconns out HM HO Hc Hv Hu Hl HZ.
  destruct (variable_same nc nv M cost used vconns out) as (R & A & B & _); auto.
  - intros v l E; apply (Hl v l E).
  - intros v l E; apply (Hl v l E).
  - exists R; auto.
Qed.
Example C39_variable_example :
  let M := ints [[5;0;-2];[-4;3;0]]%Z in
  let vconns := [[0;1];[1];[0]] in
  (forall v l c, In v [0;1;2] -> nth_error vconns v = Some l -> c < 2 -> ~ In c l -> qat M c v = 0%Qc) /\
  views (py_variable_update 3 2 (inj M) [0;1;2] (map Fin (map zq [10;20;30]%Z)) vconns)
  = Some (vints [[6;0;30];[15;20;0]])%Z.
Proof.
  split; [|vm_compute; reflexivity].
  intros [|[|[|v]]] l c Hin E Hc Hn; try (destruct v; discriminate); injection E as <-;
    destruct c as [|[|c]]; try lia; try reflexivity; exfalso; apply Hn; cbn; auto.
Qed.

(** output *)
Theorem C39_ksat_output : forall (nc nv : nat) (M : list (list Qc)),
  shape nc nv M ->
  agree (py_extrinsic_variable nv (inj M)) (ksat_update_extrinsic nv nc (inj M) (repeat n0 nv)).
Proof.
  intros nc nv M HM. destruct (extrinsic_variable_same nc nv M HM) as (q & A & B).
  exists (map Fin q). split; auto. rewrite <- B. f_equal. clear. induction nv; cbn; auto. f_equal; auto.
Qed.
Example C39_ksat_output_example :
  option_map (map view) (py_extrinsic_variable 3 (inj (ints [[5;0;-2];[-4;3;0]]%Z)))
  = Some (map (fun z => VFin (inject_Z z)) [1;3;-2])%Z.
Proof. vm_compute. reflexivity. Qed.

Print Assumptions C39_degree_partial.
Print Assumptions C39_degree_refuted.
Print Assumptions C39_subtour_partial.
Print Assumptions C39_subtour_refuted.
Print Assumptions C39_edge_to_degree_relaxed.
Print Assumptions C39_augmented_partial.
Print Assumptions C39_augmented_refuted.
Print Assumptions C39_edge_to_subtour_partial.
Print Assumptions C39_edge_to_subtour_refuted.
Print Assumptions C39_tsp_outputs.
Print Assumptions C39_filtering_partial.
Print Assumptions C39_filtering_refuted.
Print Assumptions C39_department.
Print Assumptions C39_team_to_department_partial.
Print Assumptions C39_team_to_department_refuted.
Print Assumptions C39_project_partial.
Print Assumptions C39_project_refuted.
Print Assumptions C39_project_one_team_refuted.
Print Assumptions C39_project_balanced.
Print Assumptions C39_oric_partial.
Print Assumptions C39_oric_refuted.
Print Assumptions C39_oric_to_team_partial.
Print Assumptions C39_oric_to_team_refuted.
Print Assumptions C39_kc_sums.
Print Assumptions C39_ksat_clause.
Print Assumptions C39_variable_partial.
Print Assumptions C39_variable_refuted.
Print Assumptions C39_ksat_output.
