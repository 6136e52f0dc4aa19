(** The motion of the particles in the fields of the whole grid, stated without the routines. *)
From Coq Require Import ZArith Reals List Bool.
From Verif Require Import Cxx Num NumRX Fortran FortranNum Grid Pushers Deposit Tiles DepositTiles SpecPhys SpecPush SpecYee SpecDeposit Gather SpecGather SpecTiles SpecDepositTiles PushTiles.
Import ListNotations.
Local Open Scope R_scope.

(** a particle in a tile: its only additional number is its weight *)
Definition part_of (a : rpart) : part FRX :=
  @Tiles.Part FRX (Fin (rpx a)) (Fin (rpy a)) (Fin (rpz a)) (Fin (rux a)) (Fin (ruy a)) (Fin (ruz a)) (Fin (rgam a)) [Fin (rw a) : num FRX].
Definition place3 (a : rpart) : R3 := mk3 (rpx a) (rpy a) (rpz a).
Definition momentum3 (a : rpart) : R3 := mk3 (rux a) (ruy a) (ruz a).

(** the cell of the grid with the particle, and the points around it: there are no values further away that count *)
Definition cell_at (g : cells) (a : rpart) : idx := (Int_part (unit_x g (rpx a)), Int_part (unit_y g (rpy a)), Int_part (unit_z g (rpz a))).
Definition near_lo (g : cells) (a : rpart) : idx := minus_idx (cell_at g a) (4, 4, 4)%Z.
Definition near_hi (g : cells) (a : rpart) : idx := plus_idx (cell_at g a) (4, 4, 4)%Z.
(** the fields e and b of an unbounded grid, interpolated at the particle *)
Definition fields_seen (s : scheme) (g : cells) (e b : rfield) (a : rpart) : eb :=
  (of_axes (fun d => interpolated s Electric d g (near_lo g a) (near_hi g a) (comp d e) a),
   of_axes (fun d => interpolated s Magnetic d g (near_lo g a) (near_hi g a) (comp d b) a)).

(** a particle of charge q and mass m has moved for a time dt in the fields v, by the scheme of Boris or that of Vay, and then with its new velocity *)
Definition moved (which : pusher) (c q m dt : R) (v : eb) (a a' : rpart) : Prop :=
  match which with
  | Boris => boris_step c (q * dt / (2 * m)) (momentum3 a) (fst v) (snd v) (momentum3 a')
  | Vay => vay_step c (q * dt / m) (momentum3 a) (rgam a) (fst v) (snd v) (momentum3 a') (rgam a')
  | _ => False
  end /\
  rgam a' = inv_gamma c (momentum3 a') /\
  place3 a' = SpecPhys.add3 (place3 a) (scale3 (rgam a' * dt) (momentum3 a')) /\
  rw a' = rw a.
(** the choices of a run that have this scheme of interpolation *)
Definition choices_of (s : scheme) (lvec algo : Z) (which : pusher) : choices :=
  Choices (onx (sc_order s)) (ony (sc_order s)) (onz (sc_order s)) (sc_lower s) (sc_nodal s) lvec algo which.
Definition motion_of (q m dt : R) : motion FRX := Motion (Fin q : num FRX) (Fin m : num FRX) (Fin dt : num FRX).
(** the tiles of the grid x, y, z have the particles ps *)
Definition filled (x y z : paxis R) (T : grid (tile FRX)) (ps : idx -> list rpart) : Prop :=
  glo T = (1, 1, 1)%Z /\ ghi T = (cut x, cut y, cut z) /\ forall q, In q (tiles_of x y z) -> stores (gat T q) (map part_of (ps q)).
