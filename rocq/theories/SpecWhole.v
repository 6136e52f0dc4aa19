(** The charge density of a run on several processes, each with tiles: what it has to be, stated without the routines. *)
From Coq Require Import ZArith Reals List Bool.
From Verif Require Import Cxx Num NumRX Fortran FortranNum Grid Pushers Deposit Tiles DepositTiles SpecDeposit SpecTiles SpecDepositTiles.
From Verif Require Import PartBC FieldBC SpecFieldBC.
Import ListNotations.

(** one direction of the whole grid: first node, step, tiles of each process, order of the deposition *)
Record waxis := WAxis { w_lo : R; w_d : R; w_nt : Z; w_o : Z }.

Section Whole.
Variables (L : layout) (W : dir -> waxis).
(** the part of the process with coordinate c *)
Definition part_axis (a : dir) (c : Z) : paxis R :=
  PAxis (w_lo (W a) + IZR (cells_before (l_cells L a) c) * w_d (W a))%R (w_d (W a)) (l_cells L a c + 1) (w_nt (W a)) (comp a (l_guards L)) (w_o (W a)).
Definition part_x (r : idx) := part_axis DirX (comp DirX r).
Definition part_y (r : idx) := part_axis DirY (comp DirY r).
Definition part_z (r : idx) := part_axis DirZ (comp DirZ r).
Definition sound_parts : Prop := (forall a, 0 < w_d (W a))%R /\ forall a c, (0 <= c < comp a (l_procs L))%Z -> sensible (part_axis a c).
Definition w_orders : orders := {| onx := w_o (W DirX); ony := w_o (W DirY); onz := w_o (W DirZ) |}.
Definition w_cells : SpecDeposit.cells := {| ox := w_lo (W DirX); oy := w_lo (W DirY); oz := w_lo (W DirZ); hx := w_d (W DirX); hy := w_d (W DirY); hz := w_d (W DirZ) |}.

(** the particles of the species of every process; they are in the tiles of the process *)
Variable ss : idx -> list rspecies.
Definition well_placed : Prop := forall r, In r (processes (l_procs L)) -> in_tiles (part_x r) (part_y r) (part_z r) (ss r).
(** all particles that are deposited, with the charges of their species *)
Definition charges : list (R * rpart) :=
  flat_map (fun r => flat_map (fun s => map (pair (rs_q s)) (flat_map (rs_parts s) (tiles_of (part_x r) (part_y r) (part_z r)))) (filter rs_depos (ss r)))
    (processes (l_procs L)).
End Whole.

(** charge density of particles with their charges at point P of the unbounded grid *)
Definition density_of (o : orders) (g : SpecDeposit.cells) (cs : list (R * rpart)) (P : idx) : R :=
  sumR (map (fun c => fst c * rw (snd c) / SpecDeposit.volume g * share o g (rpx (snd c)) (rpy (snd c)) (rpz (snd c)) P)%R cs).
(** number of cells of the whole grid along an axis *)
Definition all_cells (L : layout) (a : dir) : Z := cells_before (l_cells L a) (comp a (l_procs L)).
(** the points of the whole grid and m more on each side *)
Definition around (L : layout) (m : Z) : list idx := box (- m, - m, - m)%Z (all_cells L DirX + m, all_cells L DirY + m, all_cells L DirZ + m)%Z.
(** the point of the unbounded grid where node u of a process is *)
Definition point_of (L : layout) (u : node) : idx :=
  let i a := (cells_before (l_cells L a) (comp a (fst u)) + comp a (snd u))%Z in (i DirX, i DirY, i DirZ).
(** the node stands for point P: along a periodic axis, up to periods *)
Definition stands_for (L : layout) (u : node) (P : idx) : bool :=
  on_axes (fun a => let i := comp a (point_of L u) in
    if l_absorbing L a then (comp a P =? i)%Z else ((comp a P - i) mod all_cells L a =? 0)%Z).
(** the same whole grid, cut among processes in another way *)
Definition same_whole (L L' : layout) : Prop := forall a, all_cells L a = all_cells L' a /\ l_absorbing L a = l_absorbing L' a.
Definition same_axes (W W' : dir -> waxis) : Prop := forall a, w_lo (W a) = w_lo (W' a) /\ w_d (W a) = w_d (W' a) /\ w_o (W a) = w_o (W' a).

(** the charge deposition of all processes: rho is set to zero (charge_deposition_manager.F90:177), every process deposits
    the charge of its particles (pxrdepose_rho_on_grid, called at submain.F90:126) *)
Definition zero_array (L : layout) (r : idx) : grid (num FRX) :=
  let '(g1, g2, g3) := l_guards L in let '(n1, n2, n3) := local_cells L r in
  Grid (- g1, - g2, - g3)%Z (n1 + g1, n2 + g2, n3 + g3)%Z (fun _ => Fin 0 : num FRX).
Definition deposited (L : layout) (W : dir -> waxis) (threads : Z) (f : charge_routine FRX) (ss : idx -> list rspecies) (G : idx -> grid (num FRX)) : Prop :=
  forall r, In r (processes (l_procs L)) ->
    tile_deposition threads f (part_x L W r) (part_y L W r) (part_z L W r) (ss r) (zero_array L r) (Ret (G r)).
(** then the arrays are summed at the borders of the processes (charge_bcs, called at submain.F90:127) *)
Definition summed (L : layout) (blocking : bool) (G : idx -> grid (num FRX)) (T : idx -> Z -> option dtype) : out (FieldBC.world (num FRX)) :=
  charge_bcs (l_procs L) (local_cells L) (l_guards L) blocking (l_absorbing L) (start L (fun r => PState (G r) (T r))).
(** one thread, or tiles along x only *)
Definition no_race (L : layout) (W : dir -> waxis) (threads : Z) : Prop :=
  (threads <= 1)%Z \/ forall r, In r (processes (l_procs L)) -> one_cut (part_x L W r) (part_y L W r) (part_z L W r).
