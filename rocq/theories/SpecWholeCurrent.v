(** The currents of a run on several processes, each with tiles: what is claimed about them, stated without the routines. *)
From Coq Require Import ZArith Reals List Bool Permutation.
From Verif Require Import Cxx Num NumRX Fortran FortranNum Grid Pushers Yee Deposit Esirkepov Tiles DepositTiles CurrentTiles SpecYee SpecDeposit SpecCurrent SpecTiles SpecDepositTiles SpecCurrentTiles.
From Verif Require Import PartBC FieldBC SpecFieldBC SpecWhole.
Import ListNotations.
Local Open Scope R_scope.

Definition dir_of (d : axis) : dir := match d with AX => DirX | AY => DirY | AZ => DirZ end.
(** enough guard cells, short time steps, particles not faster than c *)
Definition roomy_parts (L : layout) (W : dir -> waxis) : Prop := forall a, (w_o (W a) ÷ 2 + 2 <= FieldBC.comp a (l_guards L))%Z.
Definition short_time (W : dir -> waxis) (c dt : R) : Prop := 0 < dt /\ 0 < c /\ forall a, c * dt < w_d (W a).
Definition slow_charges (c : R) (cs : list (R * rpart)) : Prop := forall b, In b cs -> slower c (snd b).

(** the current deposition of all processes: jx, jy and jz are set to zero (current_deposition_manager_3d.F90:375-377), every
    process deposits the currents of its particles (called at submain.F90:136) *)
Definition zero_arrays (L : layout) (r : idx) : field (num FRX) := Field3 (zero_array L r) (zero_array L r) (zero_array L r).
Definition currents_deposited (L : layout) (W : dir -> waxis) (K : Consts FRX) (optimised : bool) (threads : Z) (dt : R) (ss : idx -> list rspecies)
    (J : idx -> field (num FRX)) : Prop :=
  forall r, In r (processes (l_procs L)) ->
    tile_current K optimised threads dt (part_x L W r) (part_y L W r) (part_z L W r) (ss r) (zero_arrays L r) (Ret (J r)).
(** then each of them is summed at the borders of the processes (current_bcs, called at submain.F90:140) *)
Definition current_summed (L : layout) (blocking : bool) (J : idx -> field (num FRX)) (T : axis -> idx -> Z -> option dtype) (d : axis) : out (FieldBC.world (num FRX)) :=
  summed L blocking (fun r => array d (J r)) (T d).

(** the charges where they were a time dt before *)
Definition charges_before (dt : R) (cs : list (R * rpart)) : list (R * rpart) := map (fun b => (fst b, before_move dt (snd b))) cs.
(** the density at the points that node u stands for *)
Definition folded (L : layout) (m : Z) (f : idx -> R) (u : node) : R := sumR (map f (filter (stands_for L u) (around L m))).
(** the node one step back along an axis *)
Definition node_before (d : axis) (u : node) : node := (fst u, shift d (-1) (snd u)).
(** d rho / dt + div J = 0 at a node, for the change from rho0 to rho1 in the time dt *)
Definition balanced (W : dir -> waxis) (dt : R) (rho0 rho1 : node -> R) (j : axis -> node -> R) (u : node) : Prop :=
  (rho1 u - rho0 u) / dt + ((j AX u - j AX (node_before AX u)) / w_d (W DirX) + (j AY u - j AY (node_before AY u)) / w_d (W DirY) + (j AZ u - j AZ (node_before AZ u)) / w_d (W DirZ)) = 0.

(** the same charge, weight and place, up to whole periods along the periodic axes *)
Definition coord (a : dir) (b : rpart) : R := match a with DirX => rpx b | DirY => rpy b | DirZ => rpz b end.
Definition same_place (L : layout) (W : dir -> waxis) (b b' : R * rpart) : Prop :=
  fst b = fst b' /\ rw (snd b) = rw (snd b') /\
  forall a, exists k, coord a (snd b') = coord a (snd b) + IZR (k * all_cells L a) * w_d (W a) /\ (l_absorbing L a = true -> k = 0%Z).
(** the particles of the second list are those of the first, in another order and up to periods *)
Definition same_particles (L : layout) (W : dir -> waxis) (cs cs' : list (R * rpart)) : Prop := exists l, Permutation cs l /\ Forall2 (same_place L W) l cs'.
