(** Specification vocabulary for the boundary conditions of the particles. *)
From Coq Require Import ZArith Reals List Bool Permutation.
From Verif Require Import Cxx Num NumRX Fortran FortranNum Grid Tiles SpecTiles PartBC.
Import ListNotations.

Section Spec.
Context {N : FNum}.
(** The boundary conditions apply to the particles of the tiles at the edge of the local domain.  These particles of tile q
    stay in the process, *)
Definition staying (B : bnd N) (T : grid (tile N)) (A : idx -> list (part N)) (q : idx) : list (part N) :=
  if t_bound (gat T q) then flat_map (fun p => match bc_particle (gat T q) B p with Keep p' => [p'] | _ => [] end) (A q)
  else A q.
(** these leave it in direction d, *)
Definition leaving (B : bnd N) (T : grid (tile N)) (A : idx -> list (part N)) (d q : idx) : list (part N) :=
  if t_bound (gat T q)
  then flat_map (fun p => match bc_particle (gat T q) B p with Leave p' d' => if idx_eqb d' d then [p'] else [] | _ => [] end) (A q)
  else [].
(** and all of these exist after the boundary conditions: only the [Drop] ones are removed *)
Definition surviving (B : bnd N) (T : grid (tile N)) (A : idx -> list (part N)) (q : idx) : list (part N) :=
  if t_bound (gat T q)
  then flat_map (fun p => match bc_particle (gat T q) B p with Drop => [] | Keep p' | Leave p' _ => [p'] end) (A q)
  else A q.

(** a set of processes np, each with its domain, boundaries, tiles, species_npart and particles *)
Variables (np : idx) (D : idx -> dom N) (B : idx -> bnd N) (W : idx -> grid (tile N) * Z) (A : idx -> idx -> list (part N)).
(** the particles that are sent to process r *)
Definition arriving (r : idx) : list (part N) :=
  flat_map (fun d => let s := neighbour np r (opposite d) in flat_map (leaving (B s) (fst (W s)) (A s) d) (all_tiles (D s))) directions.
(** all particles of all processes, and those of them that exist after the boundary conditions *)
Definition world : list (part N) := flat_map (fun r => all_particles (D r) (A r)) (processes np).
Definition survivors : list (part N) := flat_map (fun r => flat_map (surviving (B r) (fst (W r)) (A r)) (all_tiles (D r))) (processes np).
(** every process has the tiles it thinks it has, and npid numbers for each particle *)
Definition consistent (M npid : Z) (n0 : idx -> idx) : Prop := forall r, In r (processes np) ->
  contents M (D r) (fst (W r)) (A r) /\ first_tile (fst (W r)) = Ret (n0 r) /\
  forall q p, In q (all_tiles (D r)) -> In p (A r q) -> zlen (ppid p) = npid.
(** the process that gets a particle has a tile for it *)
Definition arrivals_have_tile (n0 : idx -> idx) : Prop := forall r p, In r (processes np) -> In p (arriving r) ->
  exists q, target (D r) (n0 r) p = Ret q /\ In q (all_tiles (D r)).
Definition has_target (r q : idx) (n0 : idx -> idx) (p : part N) : bool :=
  match target (D r) (n0 r) p with Ret s => idx_eqb s q | _ => false end.
End Spec.

(** *** The split of n cells among np processes: process c has the cells from [cut n np c] to [cut n np (c + 1) - 1] *)
Definition cut (n np c : Z) : Z := (n / np * c + Z.max 0 (c - (np - n mod np)))%Z.

(** *** Exact arithmetic: one direction of the whole domain, from g_lo to g_hi with g_n cells, cut among g_np processes,
    which cut their parts into g_nt tiles *)
Record gaxis := GAxis { g_lo : R; g_hi : R; g_n : Z; g_np : Z; g_nt : Z }.
Definition good_gaxis (g : gaxis) : Prop := (g_lo g < g_hi g)%R /\ (1 <= g_np g <= g_n g)%Z /\ (g_n g + 1 < 2 ^ 31)%Z /\ (1 <= g_nt g)%Z.
Definition g_d (g : gaxis) : R := ((g_hi g - g_lo g) / IZR (g_n g))%R.
(** the left end of the part of process c; the right one is that of process c + 1 *)
Definition g_left (g : gaxis) (c : Z) : R := (g_lo g + IZR (cut (g_n g) (g_np g) c) * g_d g)%R.
Definition rank_axis (g : gaxis) (c : Z) : raxis :=
  RAxis (g_left g c) (g_d g) (cut (g_n g) (g_np g) (c + 1) - cut (g_n g) (g_np g) c + 1) (g_nt g) (g_left g c) (g_left g (c + 1)).
(** periodic boundaries in this direction *)
Definition periodic_axis (g : gaxis) (c : Z) : bax FRX :=
  BAx (Fin (g_left g c) : num FRX) (Fin (g_left g (c + 1)) : num FRX) (c =? 0)%Z (c =? g_np g - 1)%Z 0 0 (Fin (g_lo g) : num FRX) (Fin (g_hi g) : num FRX)
      (Fin (g_hi g - g_lo g) : num FRX) (Fin (g_d g) : num FRX).

Section Periodic.
Variables gx gy gz : gaxis.
Definition g_procs : idx := (g_np gx, g_np gy, g_np gz).
Definition rank_dom (r : idx) : dom FRX := let '(a, b, c) := r in dom_of (rank_axis gx a) (rank_axis gy b) (rank_axis gz c).
Definition rank_bnd (r : idx) : bnd FRX := let '(a, b, c) := r in Bnd (periodic_axis gx a) (periodic_axis gy b) (periodic_axis gz c).
(** the tiles of process r have the extents given by the split, and those at the edge are marked *)
Definition rank_tiles (r : idx) (T : grid (tile FRX)) : Prop :=
  let '(a, b, c) := r in laid_out (rank_axis gx a) (rank_axis gy b) (rank_axis gz c) T /\
  forall i j k, In (i, j, k) (all_tiles (rank_dom r)) -> 
    t_bound (gat T (i, j, k)) = true <-> i = 1%Z \/ i = ag_nt (dX (rank_dom r)) \/ j = 1%Z \/ j = ag_nt (dY (rank_dom r)) \/ k = 1%Z \/ k = ag_nt (dZ (rank_dom r)).
(** x is less than one cell away from the tile, and from the domain of the process: with a single tile in a direction the tile
    starts half a cell below the domain *)
Definition one_cell (s : raxis) (i : Z) (x : num FRX) : Prop :=
  exists l r v : R, ta_min (tile_of s i) = Fin l /\ ta_max (tile_of s i) = Fin r /\ x = Fin v /\
    (l - ra_d s < v < r + ra_d s)%R /\ (ra_lo s - ra_d s < v < ra_hi s + ra_d s)%R.
Definition all_one_cell (r : idx) (A : idx -> list (part FRX)) : Prop :=
  let '(a, b, c) := r in forall i j k p, In (i, j, k) (all_tiles (rank_dom r)) -> In p (A (i, j, k)) ->
    one_cell (rank_axis gx a) i (px p) /\ one_cell (rank_axis gy b) j (py p) /\ one_cell (rank_axis gz c) k (pz p).
(** a position up to one period outside of the domain is brought back *)
Definition wrap_axis (g : gaxis) (x : num FRX) : num FRX :=
  match x with
  | Fin v => if Rlt_dec v (g_lo g) then Fin (v + (g_hi g - g_lo g)) else if Rle_dec (g_hi g) v then Fin (v - (g_hi g - g_lo g)) else Fin v
  | _ => x
  end.
Definition wrap (p : part FRX) : part FRX :=
  Part (wrap_axis gx (px p)) (wrap_axis gy (py p)) (wrap_axis gz (pz p)) (pux p) (puy p) (puz p) (pgi p) (ppid p).
End Periodic.

(** *** Other kinds of boundaries *)
(** direction a of process c, with these kinds of boundaries and these offsets of them *)
Definition kind_axis (g : gaxis) (klo khi : Z) (offlo offhi : R) (c : Z) : bax FRX :=
  snd (@process_axis FRX klo khi (Fin offlo) (Fin offhi) (Fin (g_lo g)) (Fin (g_hi g)) (g_n g) (g_np g) (g_nt g) c (cut (g_n g) (g_np g) c) (cut (g_n g) (g_np g) (c + 1) - 1)).

(** the tile is at least one cell wide in every direction *)
Definition wide_tile (t : tile FRX) (B : bnd FRX) : Prop :=
  forall T b, In (T, b) [(t_x t, bX B); (t_y t, bY B); (t_z t, bZ B)] -> exists l r d, ta_min T = Fin l /\ ta_max T = Fin r /\ b_d b = Fin d /\ (0 < d)%R /\ (l + d <= r)%R.
