(** Specification vocabulary for the deposition on tiles. *)
From Coq Require Import ZArith Reals List Bool.
From Verif Require Import Cxx Num NumRX Fortran FortranNum Grid Pushers Deposit Tiles DepositTiles SpecDeposit SpecTiles.
Import ListNotations.

(** one direction of the grid of a process: first point, step, number of points, tiles asked for, guard cells,
    order of the deposition *)
Record paxis (A : Type) := PAxis { p_lo : A; p_d : A; p_n : Z; p_nt : Z; p_ng : Z; p_o : Z }.
Arguments PAxis {A}. Arguments p_lo {A}. Arguments p_d {A}. Arguments p_n {A}. Arguments p_nt {A}. Arguments p_ng {A}. Arguments p_o {A}.
Definition sensible {A} (a : paxis A) : Prop :=
  (2 <= p_n a <= 100000000 /\ 1 <= p_nt a /\ 2 <= p_ng a <= 100000000 /\ 1 <= p_o a <= 3)%Z.
(** the number of tiles in use *)
Definition cut {A} (a : paxis A) : Z := ntiles (p_n a) (p_nt a).
Definition tiles_of {A} (x y z : paxis A) : list idx := box (1, 1, 1)%Z (cut x, cut y, cut z).
Definition mesh_of {N : FNum} (x y z : paxis (num N)) (q : idx) : mtile N :=
  let '(i, j, k) := q in
  let m (a : paxis (num N)) i := mesh_axis (p_d a) (p_lo a) (p_n a) (p_nt a) (p_ng a) (p_o a) i in
  MTile (m x i) (m y j) (m z k).
(** bounds of the array of the process *)
Definition first_node {A} (x y z : paxis A) : idx := (- p_ng x, - p_ng y, - p_ng z)%Z.
Definition last_node {A} (x y z : paxis A) : idx := (p_n x - 1 + p_ng x, p_n y - 1 + p_ng y, p_n z - 1 + p_ng z)%Z.

(** the grid is cut in tiles along x only, and the tiles are not narrower than two rows of guard cells *)
Definition one_cut {A} (x y z : paxis A) : Prop :=
  (cut y = 1 /\ cut z = 1 /\ (cut x = 1 \/ 2 * Z.max (p_ng x) (Z.max (p_o x + 1) 2) <= p_n x ÷ p_nt x))%Z.

(** the routines for a tile: the one of any order, and those of order 1, 2 and 3 *)
Definition orders_of {A} (x y z : paxis A) : orders := {| onx := p_o x; ony := p_o y; onz := p_o z |}.
Inductive routine_for {N : FNum} (o : orders) : charge_routine N -> Prop :=
  | any_order : routine_for o (fun np xs ws q G rho => pxr_depose_rho_n np xs ws q G (onx o) (ony o) (onz o) true false rho)
  | one_order n : fixed_order n -> o = same_order n -> routine_for o (charge_fixed n).

(** *** Exact arithmetic *)
Definition fin_axis (a : paxis R) : paxis (num FRX) := PAxis (Fin (p_lo a) : num FRX) (Fin (p_d a) : num FRX) (p_n a) (p_nt a) (p_ng a) (p_o a).
Definition steps (x y z : paxis R) : num FRX * num FRX * num FRX := (Fin (p_d x) : num FRX, Fin (p_d y) : num FRX, Fin (p_d z) : num FRX).
Definition cells_of (x y z : paxis R) : cells := {| ox := p_lo x; oy := p_lo y; oz := p_lo z; hx := p_d x; hy := p_d y; hz := p_d z |}.
(** x is between the limits of tile i *)
Definition in_slab (a : paxis R) (i : Z) (x : R) : Prop :=
  inside_axis (tile_of (RAxis (p_lo a) (p_d a) (p_n a) (p_nt a) (p_lo a) (p_lo a + IZR (p_n a - 1) * p_d a)) i) (Fin x : num FRX) = true.

(** a species: is it deposited, charge, particles of every tile *)
Record rspecies := RSpecies { rs_depos : bool; rs_q : R; rs_parts : idx -> list rpart }.
Definition species_of (s : rspecies) : species FRX :=
  Species (rs_depos s) (Fin (rs_q s) : num FRX) (fun q => map (fun a => (pos_of a, weight_of a)) (rs_parts s q)).
Definition in_tiles (x y z : paxis R) (ss : list rspecies) : Prop :=
  forall s i j k a, In s ss -> In (i, j, k) (tiles_of x y z) -> In a (rs_parts s (i, j, k)) ->
    in_slab x i (rpx a) /\ in_slab y j (rpy a) /\ in_slab z k (rpz a).
(** charge density of all particles of all species that are deposited *)
Definition all_density (x y z : paxis R) (ss : list rspecies) (p : idx) : R :=
  sumR (map (fun s => density (orders_of x y z) (cells_of x y z) (rs_q s) (flat_map (rs_parts s) (tiles_of x y z)) p) (filter rs_depos ss)).

(** a possible result of the charge deposition of a process with at most n threads *)
Notation tile_deposition n f x y z ss rho r :=
  (depose_outcome n f (steps x y z) (mesh_of (fin_axis x) (fin_axis y) (fin_axis z)) (tiles_of x y z) (map species_of ss) rho r).

(** *** Lost updates *)
(** node p belongs to the array of tile t, to the left or to the right (along x) of the nodes of the tile *)
Definition beside {N : FNum} (t : mtile N) (p : idx) : bool :=
  let '(i, j, k) := m_min t in let '(c1, c2, c3) := m_cells t in let '(g1, g2, g3) := m_g t in let '(a, b, c) := p in
  (((i - g1 <=? a) && (a <? i) || (i + c1 <? a) && (a <=? i + c1 + g1)) &&
   ((j - g2 <=? b) && (b <=? j + c2 + g2)) && ((k - g3 <=? c) && (c <=? k + c3 + g3)))%Z%bool.
(** charge density of the particles of tile q *)
Definition tile_charge (x y z : paxis R) (ss : list rspecies) (q p : idx) : R :=
  sumR (map (fun s => density (orders_of x y z) (cells_of x y z) (rs_q s) (rs_parts s q) p) (filter rs_depos ss)).
(** what the tiles other than q that have p beside them give to node p *)
Definition neighbours_charge (x y z : paxis R) (ss : list rspecies) (q p : idx) : R :=
  sumR (map (fun q' => if beside (mesh_of (fin_axis x) (fin_axis y) (fin_axis z) q') p then tile_charge x y z ss q' p else 0%R)
    (filter (fun q' => negb (idx_eqb q' q)) (tiles_of x y z))).
(** the tile has a particle to deposit *)
Definition busy (ss : list rspecies) (q : idx) : Prop := exists s, In s ss /\ rs_depos s = true /\ rs_parts s q <> [].
