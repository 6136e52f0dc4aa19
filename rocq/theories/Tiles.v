(** Model of the particle tiles: src/parallelization/tiling/tiling.F90 (storage of the
    particles of a tile, the split of the local domain into tiles) and of the exchange of
    particles between tiles, src/boundary_conditions/particle_boundaries.F90.
    Simplifications: the arrays part_x, part_y, ..., pid of a tile are one array of
    records, since they are always allocated, resized and indexed together; the arrays
    part_ex, ..., part_bz (overwritten by every field gathering) are left out; one species. *)
From Coq Require Import ZArith List Bool.
From Verif Require Import Cxx Num Fortran Grid Deposit.
Import ListNotations.
Local Open Scope Z_scope.

(** a list processed from left to right; this models the language (nested DO loops) *)
Fixpoint for_each {A S} (f : A -> S -> out S) (l : list A) (s : S) : out S :=
  match l with [] => Ret s | a :: l' => do s' <- f a s; for_each f l' s' end.

Section Tiles.
Context {N : FNum}.
Local Open Scope num_scope.
Notation half := (n_lit 5 (-1)).
Notation two := (n_lit 2 0).

(** modules.F90:407-447: the attributes of one particle *)
Record part := Part { px : num N; py : num N; pz : num N;
                      pux : num N; puy : num N; puz : num N; pgi : num N; ppid : list (num N) }.

(** modules.F90:344-406, one direction of a tile: nx_grid_tile, x_tile_min, x_tile_max *)
Record taxis := TAxis { ta_n : Z; ta_min : num N; ta_max : num N }.

(** modules.F90:344-447: extents, subdomain_bound, l_arrays_allocated, np_tile(1), npmax_tile and
    the particle arrays; t_moved is are_tiles_reallocated of the species (modules.F90:520-560).
    [None] is an element that has not been defined yet. *)
Record tile := Tile { t_x : taxis; t_y : taxis; t_z : taxis; t_bound : bool; t_alloc : bool;
                      t_np : Z; t_max : Z; t_arr : list (option part); t_moved : Z }.

Definition set_arrays (t : tile) (np mx : Z) (arr : list (option part)) (moved : Z) : tile :=
  Tile (t_x t) (t_y t) (t_z t) (t_bound t) true np mx arr moved.

(** tiling.F90:109-131: number of tiles in one direction after the sanity check *)
Definition ntiles (n nt : Z) : Z := (if n ÷ nt <? 4 then 1 else nt)%Z.

(** tiling.F90:150-182 (x), 183-213 (y), 214-245 (z): tile i of a direction with n grid points
    between lo and hi.  The three IF statements of the source become one conditional: the
    one for the last tile overwrites the others. *)
Definition tile_axis (d lo hi : num N) (n nt0 : Z) (i : Z) : taxis :=
  let n0 := (n ÷ nt0)%Z in
  let nt := ntiles n nt0 in
  let nlast := (n0 + (n - n0 * nt))%Z in
  let gmin := lo + n_of_Z ((i - 1) * n0) * d in
  if (i =? nt)%Z then TAxis nlast (gmin - d / two) hi
  else if (i =? 1)%Z then TAxis n0 lo (lo + n_of_Z (n0 - 1) * d + d / two)
  else TAxis n0 (gmin - d / two) (gmin + n_of_Z (n0 - 1) * d + d / two).

(** one direction of the local domain: x_min_local, dx, ntilex, x_min_local_part, x_max_local_part *)
Record ageo := AGeo { ag_lo : num N; ag_d : num N; ag_nt : Z; ag_plo : num N; ag_phi : num N }.
Record dom := Dom { dX : ageo; dY : ageo; dZ : ageo }.

(** tiling.F90:94-247 set_tile_split_for_species and 756-786 (init_tile_arrays_for_species,
    without guard cells): all tiles, empty, for nppcell particles per cell in 3D *)
Definition init_tiles (dx dy dz xlo xhi ylo yhi zlo zhi : num N) (nx ny nz ntx nty ntz nppcell : Z) : out (grid tile) :=
  if ((ntx =? 0) || (nty =? 0) || (ntz =? 0))%Z then UB else
  let mx := ntiles nx ntx in let my := ntiles ny nty in let mz := ntiles nz ntz in
  let edge i m := ((i =? 1) || (i =? m))%Z in
  Ret (Grid (1, 1, 1)%Z (mx, my, mz) (fun q => let '(i, j, k) := q in
    let ax := tile_axis dx xlo xhi nx ntx i in
    let ay := tile_axis dy ylo yhi ny nty j in
    let az := tile_axis dz zlo zhi nz ntz k in
    let cap := Z.max ((ta_n ax - 1) * (ta_n ay - 1) * (ta_n az - 1) * nppcell)%Z 1 in
    Tile ax ay az (edge i mx || edge j my || edge k mz) true 0 cap (repeat None (Z.to_nat cap)) 0)).

(** tiling.F90:682-696 allocate_tile_arrays *)
Definition allocate_tile_arrays (t : tile) : tile :=
  set_arrays t (t_np t) (t_max t) (repeat None (Z.to_nat (t_max t))) (t_moved t).

(** tiling.F90:1116-1135 resize_1D_array_real, 1147-1175 resize_2D_array_real *)
Definition resize_array {A} (arr : list (option A)) (old_size new_size : Z) : out (list (option A)) :=
  let n := Z.min old_size new_size in
  if (n <=? zlen arr)%Z
  then Ret (firstn (Z.to_nat n) arr ++ repeat None (Z.to_nat new_size - Z.to_nat n)) else UB.

(** tiling.F90:1082-1104 resize_particle_arrays, and are_tiles_reallocated = 1 beside each call *)
Definition resize_particle_arrays (t : tile) (new_size : Z) : out tile :=
  do arr <- resize_array (t_arr t) (t_max t) new_size;
  Ret (set_arrays t (t_np t) new_size arr 1).

(** NINT(x, idp) *)
Definition nint64 (x : num N) : out Z :=
  let chk z := if ((- 2 ^ 63 <=? z) && (z <? 2 ^ 63))%Z then Ret z else UB in
  if x <? n_of_Z 0 then do z <- nearest_pos (- x); chk (- z)%Z else do z <- nearest_pos x; chk z.

(** modules.F90:728-732 *)
Definition resize_factor : num N := n_lit 2 0.
Definition downsize_factor : num N := n_lit 5 (-1).
Definition downsize_threshold : num N := n_lit 4 (-1).

(** tiling.F90:424-455, the tile *)
Definition add_to_tile (t : tile) (p : part) : out tile :=
  let t := if t_alloc t then t else allocate_tile_arrays t in
  let count := (t_np t + 1)%Z in
  let nmax := t_max t in
  do t <- (if (nmax <? count)%Z
           then do m <- nint64 (resize_factor * n_of_Z nmax + n_of_Z 1); resize_particle_arrays t m
           else Ret t);
  do arr <- set1 (t_arr t) count (Some p);
  Ret (set_arrays t count (t_max t) arr (t_moved t)).

(** tiling.F90:415-456 add_particle_at_tile *)
Definition add_particle_at_tile (q : idx) (p : part) (T : grid tile) : out (grid tile) :=
  do t <- get3 T q; do t <- add_to_tile t p; set3 T q t.

(** tiling.F90:640-669, the tile *)
Definition rm_from_tile (t : tile) (i : Z) : out tile :=
  do t <- (if (i =? t_np t)%Z then Ret (set_arrays t (t_np t - 1)%Z (t_max t) (t_arr t) (t_moved t))
           else do p <- get1 (t_arr t) (t_np t); do arr <- set1 (t_arr t) i p;
                Ret (set_arrays t (t_np t - 1)%Z (t_max t) arr (t_moved t)));
  do a <- floor32 (downsize_threshold * n_of_Z (t_max t));
  if (t_np t <? a)%Z
  then do b <- floor32 (downsize_factor * n_of_Z (t_max t));
       if (0 <? b)%Z
       then do c <- floor64 (downsize_factor * n_of_Z (t_max t)); resize_particle_arrays t c
       else Ret t
  else Ret t.

(** tiling.F90:633-670 rm_particle_at_tile *)
Definition rm_particle_at_tile (q : idx) (i : Z) (T : grid tile) : out (grid tile) :=
  do t <- get3 T q; do t <- rm_from_tile t i; set3 T q t.

(** tiling.F90:468-510 add_group_of_particles_at_tile, the tile *)
Definition add_group_to_tile (t : tile) (ps : list part) : out tile :=
  let t := if t_alloc t then t else allocate_tile_arrays t in
  let count := t_np t in
  let npnew := (count + zlen ps)%Z in
  let nmax := t_max t in
  do t <- (if (nmax <? npnew)%Z
           then do m <- nint64 (resize_factor * n_of_Z nmax + n_of_Z 1); resize_particle_arrays t m
           else Ret t);
  do arr <- do_range 1 (zlen ps) (fun i arr => do p <- get1 ps i; set1 arr (count + i)%Z (Some p)) (t_arr t);
  Ret (set_arrays t npnew (t_max t) arr (t_moved t)).

(** tiling.F90:522-538 rm_particles_from_species_with_mask, the tile; the number of removed
    particles is subtracted from species_npart *)
Definition rm_with_mask (mask : list bool) (t : tile) (npart : Z) : out (tile * Z) :=
  do_range_down (t_np t) 1 (fun i s =>
    do m <- get1 mask i;
    if m then Ret s else do t <- rm_from_tile (fst s) i; Ret (t, (snd s - 1)%Z)) (t, npart).

(** tiling.F90:333-336, and particle_boundaries.F90:397-399: index of the tile of a position *)
Definition tile_index (g : ageo) (n0 : Z) (x : num N) : out Z :=
  do f <- floor64 ((x - ag_lo g + ag_d g / two) / (n_of_Z n0 * ag_d g));
  Ret (Z.min (f + 1) (ag_nt g)).
Definition target (D : dom) (n0 : idx) (p : part) : out idx :=
  let '(n1, n2, n3) := n0 in
  do i <- tile_index (dX D) n1 (px p); do j <- tile_index (dY D) n2 (py p); do k <- tile_index (dZ D) n3 (pz p);
  Ret (i, j, k).

(** nx_grid_tile, ny_grid_tile, nz_grid_tile of array_of_tiles(1, 1, 1) *)
Definition first_tile (T : grid tile) : out idx :=
  do t <- get3 T (1, 1, 1)%Z; Ret (ta_n (t_x t), ta_n (t_y t), ta_n (t_z t)).

(** tiling.F90:316-344 add_particle_to_species; the state is the tiles and species_npart *)
Definition add_particle_to_species (D : dom) (p : part) (s : grid tile * Z) : out (grid tile * Z) :=
  do n0 <- first_tile (fst s);
  do q <- target D n0 p;
  do T <- add_particle_at_tile q p (fst s);
  Ret (T, (snd s + 1)%Z).

(** tiling.F90:1382-1397 py_add_particles_to_species *)
Definition py_add_particles_to_species (D : dom) (ps : list part) (s : grid tile * Z) : out (grid tile * Z) :=
  do_range 1 (zlen ps) (fun i s => do p <- get1 ps i; add_particle_to_species D p s) s.

(** particle_boundaries.F90:380-384 (case 1), 387-392 (case 2) *)
Definition inside_axis (a : taxis) (x : num N) : bool := (ta_min a <=? x) && (x <? ta_max a).
Definition inside (t : tile) (p : part) : bool :=
  inside_axis (t_x t) (px p) && inside_axis (t_y t) (py p) && inside_axis (t_z t) (pz p).
Definition outside_axis (g : ageo) (x : num N) : bool := (x <? ag_plo g) || (ag_phi g <=? x).
Definition outside (D : dom) (p : part) : bool :=
  outside_axis (dX D) (px p) || outside_axis (dY D) (py p) || outside_axis (dZ D) (pz p).

(** particle_boundaries.F90:370-406: particle i of tile q *)
Definition sweep_particle (D : dom) (n0 : idx) (q : idx) (i : Z) (T : grid tile) : out (grid tile) :=
  do t <- get3 T q;
  do o <- get1 (t_arr t) i;
  match o with
  | None => UB
  | Some p =>
      if inside t p then Ret T
      else if outside D p then Ret T
      else do r <- target D n0 p;
           do T <- rm_particle_at_tile q i T;
           add_particle_at_tile r p T
  end.

(** particle_boundaries.F90:367-407: one tile *)
Definition sweep_tile (D : dom) (n0 : idx) (q : idx) (T : grid tile) : out (grid tile) :=
  do t <- get3 T q; do_range_down (t_np t) 1 (sweep_particle D n0 q) T.

(** particle_boundaries.F90:350-413 particle_bcs_tiles *)
Definition all_tiles (D : dom) : list idx := box (1, 1, 1)%Z (ag_nt (dX D), ag_nt (dY D), ag_nt (dZ D)).
Definition particle_bcs_tiles (D : dom) (T : grid tile) : out (grid tile) :=
  do n0 <- first_tile T; for_each (sweep_tile D n0) (all_tiles D) T.

(** particle_boundaries.F90:428-536 particle_bcs_tiles_openmp: the tiles of one of the 27 parallel
    loops, DO iz=ipz, ntilez, 3 and the same for iy and ix *)
Definition steps3 (lo hi : Z) : list Z := map (fun i => lo + 3 * i)%Z (zseq (Z.to_nat ((hi - lo + 3) ÷ 3))).
Definition colour (D : dom) (c : idx) : list idx :=
  let '(a, b, e) := c in
  flat_map (fun l => flat_map (fun k => map (fun j => (j, k, l)) (steps3 a (ag_nt (dX D)))) (steps3 b (ag_nt (dY D))))
           (steps3 e (ag_nt (dZ D))).
Definition colours : list idx := (box (1, 1, 1) (3, 3, 3))%Z.

(** One parallel loop over the tiles L, executed in any way: [pc q] is [None] before the iteration of
    tile q has read np_tile, and [Some i] when particle i of tile q is the next one.
    Simplification: one iteration of the loop over the particles of a tile is atomic. *)
Definition upd {A} (f : idx -> A) (q : idx) (a : A) : idx -> A := fun r => if idx_eqb q r then a else f r.
Inductive parallel_sweep (D : dom) (n0 : idx) (L : list idx) : grid tile -> (idx -> option Z) -> out (grid tile) -> Prop :=
| ps_done : forall T pc, (forall q, In q L -> exists i, pc q = Some i /\ (i < 1)%Z) -> parallel_sweep D n0 L T pc (Ret T)
| ps_start : forall T pc q t r, In q L -> pc q = None -> get3 T q = Ret t ->
    parallel_sweep D n0 L T (upd pc q (Some (t_np t))) r -> parallel_sweep D n0 L T pc r
| ps_start_ub : forall T pc q, In q L -> pc q = None -> get3 T q = UB -> parallel_sweep D n0 L T pc UB
| ps_next : forall T pc q i T' r, In q L -> pc q = Some i -> (1 <= i)%Z -> sweep_particle D n0 q i T = Ret T' ->
    parallel_sweep D n0 L T' (upd pc q (Some (i - 1)%Z)) r -> parallel_sweep D n0 L T pc r
| ps_next_ub : forall T pc q i, In q L -> pc q = Some i -> (1 <= i)%Z -> sweep_particle D n0 q i T = UB ->
    parallel_sweep D n0 L T pc UB.

(** the 27 parallel loops one after the other *)
Inductive omp_sweeps (D : dom) (n0 : idx) : list idx -> grid tile -> out (grid tile) -> Prop :=
| os_nil : forall T, omp_sweeps D n0 [] T (Ret T)
| os_cons : forall c cs T T' r, parallel_sweep D n0 (colour D c) T (fun _ => None) (Ret T') ->
    omp_sweeps D n0 cs T' r -> omp_sweeps D n0 (c :: cs) T r
| os_ub : forall c cs T, parallel_sweep D n0 (colour D c) T (fun _ => None) UB -> omp_sweeps D n0 (c :: cs) T UB.
Definition particle_bcs_tiles_openmp (D : dom) (T : grid tile) (r : out (grid tile)) : Prop :=
  match first_tile T with Ret n0 => omp_sweeps D n0 colours T r | _ => r = UB end.

End Tiles.
Arguments part : clear implicits. Arguments tile : clear implicits. Arguments dom : clear implicits.
Arguments taxis : clear implicits. Arguments ageo : clear implicits.
