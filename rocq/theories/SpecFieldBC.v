(** What the exchange of guard cells and the summation over the processes have to do, stated without the routines. *)
From Coq Require Import ZArith List Bool Reals.
From Verif Require Import Cxx Grid PartBC FieldBC.
Import ListNotations.
Local Open Scope Z_scope.

(** How the grid is distributed: the number of processes along each axis, the number of cells of the processes along each axis,
    the guard cells, and the axes with absorbing boundaries (the others are periodic).  A process has the nodes
    0, ..., cells along each axis, and guard nodes on both sides. *)
Record layout := Layout { l_procs : idx; l_cells : dir -> Z -> Z; l_guards : idx; l_absorbing : dir -> bool }.
Definition local_cells (L : layout) (r : idx) : idx :=
  (l_cells L DirX (comp DirX r), l_cells L DirY (comp DirY r), l_cells L DirZ (comp DirZ r)).

(** every process has more cells than guard cells along each axis *)
Definition sound_layout (L : layout) : Prop :=
  forall a, 1 <= comp a (l_procs L) /\ 0 <= comp a (l_guards L) /\
    forall c, 0 <= c < comp a (l_procs L) -> comp a (l_guards L) < l_cells L a c.

(** the cells before process c along an axis *)
Definition cells_before (cells : Z -> Z) (c : Z) : Z := fold_right Z.add 0 (map cells (zrange 0 (c - 1))).
(** the node of the whole grid that node i of process c stands for *)
Definition place (L : layout) (a : dir) (c i : Z) : Z :=
  let x := cells_before (l_cells L a) c + i in
  if l_absorbing L a then x else x mod cells_before (l_cells L a) (comp a (l_procs L)).

(** node p of process r *)
Definition node : Type := (idx * idx)%type.
Definition on_axes (f : dir -> bool) : bool := f DirX && f DirY && f DirZ.
Definition same_node (L : layout) (x y : node) : bool :=
  on_axes (fun a => place L a (comp a (fst x)) (comp a (snd x)) =? place L a (comp a (fst y)) (comp a (snd y))).
(** the process is responsible for the node: it is among its own nodes (the last one is the first one of the next process),
    or it lies outside of the grid, beyond an absorbing boundary *)
Definition responsible (L : layout) (x : node) : bool :=
  on_axes (fun a =>
    let c := comp a (fst x) in let i := comp a (snd x) in
    let y := cells_before (l_cells L a) c + i in
    (0 <=? i) && (i <? l_cells L a c) ||
    l_absorbing L a && ((y <? 0) || (cells_before (l_cells L a) (comp a (l_procs L)) <=? y))).

Definition local_nodes (L : layout) (r : idx) : list idx :=
  let '(g1, g2, g3) := l_guards L in let '(n1, n2, n3) := local_cells L r in
  box (- g1, - g2, - g3) (n1 + g1, n2 + g2, n3 + g3).
Definition nodes (L : layout) : list node := flat_map (fun r => map (pair r) (local_nodes L r)) (processes (l_procs L)).

(** the arrays of all processes *)
Definition start {A} (L : layout) (F : idx -> pstate A) : world A := map (fun r => (r, F r)) (processes (l_procs L)).
Definition value {A} (F : idx -> pstate A) (x : node) : A := gat (arr (F (fst x))) (snd x).
(** the array of process r has the bounds of its local nodes *)
Definition right_bounds {A} (L : layout) (r : idx) (G : grid A) : Prop :=
  let '(g1, g2, g3) := l_guards L in let '(n1, n2, n3) := local_cells L r in
  glo G = (- g1, - g2, - g3) /\ ghi G = (n1 + g1, n2 + g2, n3 + g3).

(** the derived types that a process has created so far are those for arrays with these guard cells: the table of types belongs to the
    process, and these are the only entries that the routines use *)
Definition type_entry (k : Z) : option dir :=
  if existsb (Z.eqb k) [1; 4; 7; 10] then Some DirX else
  if existsb (Z.eqb k) [2; 5; 8; 11] then Some DirY else
  if existsb (Z.eqb k) [3; 6; 9; 12] then Some DirZ else None.
Definition right_types (L : layout) (r : idx) (T : Z -> option dtype) : Prop :=
  forall k a t, type_entry k = Some a -> T k = Some t ->
    t = (subsizes a (local_cells L r) (l_guards L), sizes (local_cells L r) (l_guards L)).
Definition right_start {A} (L : layout) (F : idx -> pstate A) : Prop :=
  forall r, In r (processes (l_procs L)) -> right_bounds L r (arr (F r)) /\ right_types L r (types (F r)).

Definition total (l : list R) : R := fold_right Rplus 0%R l.

(** two arrays with different numbers of guard cells are exchanged one after the other: the second call starts with
    the derived types that the first one has left *)
Definition two_arrays (L1 L2 : layout) (blocking : bool) (F1 : idx -> pstate Z) (G : idx -> grid Z) (F1' : idx -> pstate Z) : Prop :=
  sound_layout L1 /\ sound_layout L2 /\ l_procs L2 = l_procs L1 /\ l_cells L2 = l_cells L1 /\ l_absorbing L2 = l_absorbing L1 /\ right_start L1 F1 /\
  (forall r, In r (processes (l_procs L2)) -> right_bounds L2 r (G r)) /\
  field_bc (l_procs L1) (local_cells L1) (l_guards L1) blocking (l_absorbing L1) (start L1 F1) = Ret (start L1 F1').
Definition second (L1 L2 : layout) (blocking : bool) (G : idx -> grid Z) (F1' : idx -> pstate Z) : out (world Z) :=
  field_bc (l_procs L2) (local_cells L2) (l_guards L2) blocking (l_absorbing L2) (start L2 (fun r => PState (G r) (types (F1' r)))).


(** the same layout with periodic boundaries *)
Definition as_periodic (L : layout) : layout := Layout (l_procs L) (l_cells L) (l_guards L) (fun _ => false).
(** the node is one of the process's own *)
Definition own_node (L : layout) (x : node) : bool := on_axes (fun a => (0 <=? comp a (snd x)) && (comp a (snd x) <? l_cells L a (comp a (fst x)))).
