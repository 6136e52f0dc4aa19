(** Specification vocabulary for the particle tiles. *)
From Coq Require Import ZArith Reals List Bool Permutation.
From Verif Require Import Cxx Num NumRX NumIEEE Fortran FortranNum Grid Tiles.
Import ListNotations.

(** the tile stores exactly the particles ps, in this order *)
Definition stores {N} (t : tile N) (ps : list (part N)) : Prop :=
  t_alloc t = true /\ t_np t = zlen ps /\ t_max t = zlen (t_arr t) /\ exists junk, t_arr t = map Some ps ++ junk.

(** the extents of the tile have not changed *)
Definition same_extents {N} (t t' : tile N) : Prop :=
  t_x t' = t_x t /\ t_y t' = t_y t /\ t_z t' = t_z t /\ t_bound t' = t_bound t.

(** A gives the particles of every tile of the species; no array has more than M elements *)
Definition contents {N} (M : Z) (D : dom N) (T : grid (tile N)) (A : idx -> list (part N)) : Prop :=
  glo T = (1, 1, 1)%Z /\ ghi T = (ag_nt (dX D), ag_nt (dY D), ag_nt (dZ D)) /\
  forall q, In q (all_tiles D) -> stores (gat T q) (A q) /\ (t_max (gat T q) <= M)%Z.

(** all particles of the species *)
Definition all_particles {N} (D : dom N) (A : idx -> list (part N)) : list (part N) := flat_map A (all_tiles D).

(** The tile where a particle found in tile q has to be after the exchange: it does not move if
    it is inside its tile or outside the local domain (then it is a matter of the
    boundary conditions). *)
Definition new_tile {N} (D : dom N) (n0 : idx) (T : grid (tile N)) (q : idx) (p : part N) : out idx :=
  if inside (gat T q) p || outside D p then Ret q else target D n0 p.
Definition goes_to {N} (D : dom N) (n0 : idx) (T : grid (tile N)) (r q : idx) (p : part N) : bool :=
  match new_tile D n0 T q p with Ret s => idx_eqb s r | _ => false end.
(** the particles that have to be in tile r *)
Definition expected {N} (D : dom N) (n0 : idx) (T : grid (tile N)) (A : idx -> list (part N)) (r : idx) : list (part N) :=
  flat_map (fun q => filter (goes_to D n0 T r q) (A q)) (all_tiles D).

(** particles that have to move get the index of an existing tile *)
Definition targets_exist {N} (D : dom N) (n0 : idx) (T : grid (tile N)) (A : idx -> list (part N)) : Prop :=
  forall q p, In q (all_tiles D) -> In p (A q) -> exists r, new_tile D n0 T q p = Ret r /\ In r (all_tiles D).
(** no particle has to move by more than one tile in each direction *)
Definition targets_adjacent {N} (D : dom N) (n0 : idx) (T : grid (tile N)) (A : idx -> list (part N)) : Prop :=
  forall q p, In q (all_tiles D) -> In p (A q) -> exists r, new_tile D n0 T q p = Ret r /\ In r (all_tiles D) /\
    let '(a, b, c) := q in let '(j, k, l) := r in (Z.abs (j - a) <= 1 /\ Z.abs (k - b) <= 1 /\ Z.abs (l - c) <= 1)%Z.

(** *** Exact arithmetic: one direction of the local domain, n grid points from lo with step d, cut into
    nt0 tiles (or one, if they would be too small); particles live between plo and phi *)
Record raxis := RAxis { ra_lo : R; ra_d : R; ra_n : Z; ra_nt : Z; ra_plo : R; ra_phi : R }.
Definition ra_hi (s : raxis) : R := (ra_lo s + IZR (ra_n s - 1) * ra_d s)%R.
Definition good_axis (s : raxis) : Prop :=
  (0 < ra_d s)%R /\ (2 <= ra_n s < 2 ^ 31)%Z /\ (1 <= ra_nt s)%Z /\ (ra_lo s <= ra_plo s)%R /\ (ra_phi s <= ra_hi s)%R.
Definition axis_of (s : raxis) : ageo FRX :=
  AGeo (Fin (ra_lo s) : num FRX) (Fin (ra_d s) : num FRX) (ntiles (ra_n s) (ra_nt s)) (Fin (ra_plo s) : num FRX) (Fin (ra_phi s) : num FRX).
Definition tile_of (s : raxis) (i : Z) : taxis FRX :=
  @tile_axis FRX (Fin (ra_d s)) (Fin (ra_lo s)) (Fin (ra_hi s)) (ra_n s) (ra_nt s) i.
(** the tiles have the extents given by the split of the domain *)
Definition laid_out (sx sy sz : raxis) (T : grid (tile FRX)) : Prop :=
  forall i j k, let t := gat T (i, j, k) in In (i, j, k) (box (glo T) (ghi T)) ->
    t_x t = tile_of sx i /\ t_y t = tile_of sy j /\ t_z t = tile_of sz k.
Definition finite (p : part FRX) : Prop := exists x y z : R, px p = Fin x /\ py p = Fin y /\ pz p = Fin z.
(** x is less than four cells away from the tile *)
Definition close (s : raxis) (i : Z) (x : num FRX) : Prop :=
  exists l r v : R, ta_min (tile_of s i) = Fin l /\ ta_max (tile_of s i) = Fin r /\ x = Fin v /\
    (l - 4 * ra_d s < v < r + 4 * ra_d s)%R.
Definition dom_of (sx sy sz : raxis) : dom FRX := Dom (axis_of sx) (axis_of sy) (axis_of sz).
Definition all_close (sx sy sz : raxis) (A : idx -> list (part FRX)) : Prop :=
  forall i j k p, In (i, j, k) (all_tiles (dom_of sx sy sz)) -> In p (A (i, j, k)) ->
    close sx i (px p) /\ close sy j (py p) /\ close sz k (pz p).

(** after an exchange (A' instead of A, in the tiles T') every particle of the domain is inside its
    tile; particles outside the domain are in the tile where they were *)
Definition in_place {N} (D : dom N) (A A' : idx -> list (part N)) (T' : grid (tile N)) : Prop :=
  forall r p, In r (all_tiles D) -> In p (A' r) ->
    (outside D p = false -> inside (gat T' r) p = true) /\ (outside D p = true -> In p (A r)).

(** the elements whose mask is true *)
Definition kept {A} (mask : list bool) (l : list A) : list A := map snd (filter fst (combine mask l)).

(** exact arithmetic or IEEE binary64 *)
Definition arithmetic (N : FNum) : Prop := N = FRX \/ exists lm, N = F64 lm.
