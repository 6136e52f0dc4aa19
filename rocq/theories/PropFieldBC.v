(** C111-C115: guard cells and summation over the processes (src/boundary_conditions/field_boundaries.F90). *)
From Coq Require Import ZArith Reals List Bool.
From Verif Require Import Cxx Num NumRX Fortran FortranNum Grid PartBC FieldBC SpecFieldBC FieldBCProofs FieldBCSum FieldBCReal FieldBCExamples.
Import ListNotations.
Local Open Scope Z_scope.

(** ** C111: after the exchange all guard cells have the values of the nodes they stand for *)
(** for every split of the grid, any number of guard cells below the number of cells, periodic and absorbing axes, blocking
    or not: every node that a process stores is held by exactly the processes responsible for it, and gets the value it has there *)
Theorem C111_guard_exchange : forall A L blocking (F : idx -> pstate A), sound_layout L -> right_start L F ->
  exists F', field_bc (l_procs L) (local_cells L) (l_guards L) blocking (l_absorbing L) (start L F) = Ret (start L F') /\ right_start L F' /\
    forall x, In x (nodes L) ->
      (exists y, In y (nodes L) /\ responsible L y = true /\ same_node L x y = true) /\
      forall y, In y (nodes L) -> responsible L y = true -> same_node L x y = true -> value F' x = value F y.
Proof. exact (@guard_exchange). Qed.
Print Assumptions C111_guard_exchange.
(** one process is responsible for each node *)
Theorem C111_one_responsible : forall L x y, sound_layout L -> In x (nodes L) -> In y (nodes L) ->
  responsible L x = true -> responsible L y = true -> same_node L x y = true -> x = y.
Proof. exact one_responsible. Qed.
Print Assumptions C111_one_responsible.
Example C111_case : forall b, sound_layout (eg_layout b) /\ right_start (eg_layout b) (fresh (eg_layout b) mark).
Proof. exact (fun b => conj (eg_sound b) (fresh_start _ _)). Qed.
(** an upper guard node of one process is the node of another, in a periodic layout; with an absorbing boundary it is not *)
Example C111_nodes :
  In ((1, 0, 2), (6, 1, -1)) (nodes (eg_layout false)) /\ In ((0, 0, 1), (1, 1, 2)) (nodes (eg_layout false)) /\
  responsible (eg_layout false) ((0, 0, 1), (1, 1, 2)) = true /\ same_node (eg_layout false) ((1, 0, 2), (6, 1, -1)) ((0, 0, 1), (1, 1, 2)) = true /\
  same_node (eg_layout true) ((1, 0, 2), (6, 1, -1)) ((0, 0, 1), (1, 1, 2)) = false /\ responsible (eg_layout true) ((1, 0, 2), (6, 1, 2)) = true.
Proof. exact eg_copies. Qed.

(** ** C112: after the summation all copies of a node agree, in any arithmetic *)
Theorem C112_copies_agree : forall N L blocking (F : idx -> pstate (num N)), sound_layout L -> right_start L F ->
  exists F', charge_bcs (l_procs L) (local_cells L) (l_guards L) blocking (l_absorbing L) (start L F) = Ret (start L F') /\ right_start L F' /\
    forall x y, In x (nodes L) -> In y (nodes L) -> same_node L x y = true -> value F' x = value F' y.
Proof. exact copies_agree. Qed.
Print Assumptions C112_copies_agree.
Example C112_case : forall b, sound_layout (eg_layout b) /\ right_start (eg_layout b) (fresh (eg_layout b) (fun _ => Fin 1 : num FRX)).
Proof. exact (fun b => conj (eg_sound b) (fresh_start _ _)). Qed.

(** ** C113: the summation adds what all processes have deposited *)
(** in exact arithmetic every copy of a node gets the sum over all copies (blocking: periodic axes only, see C115) *)
Theorem C113_summation : forall L blocking (F : idx -> pstate (num FRX)) f, sound_layout L -> right_start L F ->
  (blocking = true -> forall a, l_absorbing L a = false) -> (forall x, In x (nodes L) -> value F x = Fin (f x)) ->
  exists F', charge_bcs (l_procs L) (local_cells L) (l_guards L) blocking (l_absorbing L) (start L F) = Ret (start L F') /\ right_start L F' /\
    forall x, In x (nodes L) -> value F' x = Fin (total (map f (filter (same_node L x) (nodes L)))).
Proof. exact summation. Qed.
Print Assumptions C113_summation.
(** nothing is lost and nothing counted twice *)
Theorem C113_conserved : forall L blocking (F : idx -> pstate (num FRX)) f, sound_layout L -> right_start L F ->
  (blocking = true -> forall a, l_absorbing L a = false) -> (forall x, In x (nodes L) -> value F x = Fin (f x)) ->
  exists F' f', charge_bcs (l_procs L) (local_cells L) (l_guards L) blocking (l_absorbing L) (start L F) = Ret (start L F') /\
    (forall x, In x (nodes L) -> value F' x = Fin (f' x)) /\ total (map f' (filter (responsible L) (nodes L))) = total (map f (nodes L)).
Proof. exact charge_conserved. Qed.
Print Assumptions C113_conserved.
Example C113_case : sound_layout (eg_layout false) /\ right_start (eg_layout false) (fresh (eg_layout false) (fun y => Fin (spot y) : num FRX)) /\
  (forall a, l_absorbing (eg_layout false) a = false) /\
  (forall x, In x (nodes (eg_layout false)) -> value (fresh (eg_layout false) (fun y => Fin (spot y) : num FRX)) x = Fin (spot x)).
Proof. exact eg_summation. Qed.

(** ** C114: arrays with different numbers of guard cells *)
(** The derived types are made by the first call and kept, whatever the guard cells of later arrays are.  If a later array has more guard
    cells, the blocking exchange reads values that were never set and the other one leaves wrong values in guard cells;
    if it has fewer, the exchange reads outside of the array. *)
Theorem C114_guard_numbers_refuted :
  (exists L1 L2 F1 G F1', (forall a, comp a (l_guards L1) < comp a (l_guards L2)) /\ two_arrays L1 L2 true F1 G F1' /\ second L1 L2 true G F1' = UB) /\
  (forall blocking, exists L1 L2 F1 G F1', (forall a, comp a (l_guards L2) < comp a (l_guards L1)) /\ two_arrays L1 L2 blocking F1 G F1' /\ second L1 L2 blocking G F1' = UB) /\
  (exists L1 L2 F1 G F1' w st x y, two_arrays L1 L2 false F1 G F1' /\ second L1 L2 false G F1' = Ret w /\ process w (fst x) = Ret st /\
    In x (nodes L2) /\ In y (nodes L2) /\ responsible L2 y = true /\ same_node L2 x y = true /\ gat (arr st) (snd x) <> gat (G (fst y)) (snd y)).
Proof. exact guard_numbers_refuted. Qed.
Print Assumptions C114_guard_numbers_refuted.
(** with the same numbers of guard cells the second array is exchanged as the first *)
Theorem C114_same_guards : forall L blocking F1 G F1', two_arrays L L blocking F1 G F1' ->
  exists F2, second L L blocking G F1' = Ret (start L F2) /\
    forall x y, In x (nodes L) -> In y (nodes L) -> responsible L y = true -> same_node L x y = true -> value F2 x = gat (G (fst y)) (snd y).
Proof. exact same_guards. Qed.
Print Assumptions C114_same_guards.
Example C114_case : forall blocking, exists L F1 G F1', two_arrays L L blocking F1 G F1' /\ forall a, 0 < comp a (l_guards L).
Proof. exact eg_same_guards. Qed.

(** ** C115: the blocking summation at absorbing boundaries *)
(** it treats all axes as periodic: a node of the grid gets what was deposited at the nodes that would be the same if the axes were *)
Theorem C115_blocking_wraps : forall L (F : idx -> pstate (num FRX)) f, sound_layout L -> right_start L F -> (forall x, In x (nodes L) -> value F x = Fin (f x)) ->
  exists F', charge_bcs (l_procs L) (local_cells L) (l_guards L) true (l_absorbing L) (start L F) = Ret (start L F') /\
    forall x, In x (nodes L) -> own_node L x = true -> value F' x = Fin (total (map f (filter (same_node (as_periodic L) x) (nodes L)))).
Proof. exact blocking_wraps. Qed.
Print Assumptions C115_blocking_wraps.
(** so a charge beyond the upper boundary appears at the lower one *)
Theorem C115_absorbing_refuted : exists L (F : idx -> pstate (num FRX)) f (F' : idx -> pstate (num FRX)) x, sound_layout L /\ right_start L F /\ (forall y, In y (nodes L) -> value F y = Fin (f y)) /\
  charge_bcs (l_procs L) (local_cells L) (l_guards L) true (l_absorbing L) (start L F) = Ret (start L F') /\
  l_absorbing L DirX = true /\ In x (nodes L) /\ comp DirX (snd x) = 1 /\
  (forall y, In y (nodes L) -> comp DirX (snd y) <= 2 -> f y = 0%R) /\ total (map f (filter (same_node L x) (nodes L))) = 0%R /\ value F' x = Fin 1.
Proof. exact absorbing_blocking_refuted. Qed.
Print Assumptions C115_absorbing_refuted.
Example C115_case : sound_layout (eg_layout true) /\ l_absorbing (eg_layout true) DirX = true.
Proof. exact (conj (eg_sound true) eq_refl). Qed.
