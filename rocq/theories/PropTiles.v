(** C100-C106: the particle tiles (src/parallelization/tiling/tiling.F90) and the exchange of particles
    between them (src/boundary_conditions/particle_boundaries.F90). *)
From Coq Require Import ZArith Reals List Bool Permutation.
From Verif Require Import Cxx Num NumRX NumIEEE Fortran FortranNum Grid Tiles SpecTiles TilesProofs TilesDomain TilesBoth TilesExamples.
Import ListNotations.
Local Open Scope Z_scope.

(** ** C100: the tiles of a species are a partition of the local domain *)
(** every position is inside exactly one tile, and it is the one whose index is computed from the position *)
Theorem C100_one_tile_for_each_position : forall s x, good_axis s -> (ra_lo s <= x < ra_hi s)%R ->
  exists i, 1 <= i <= ntiles (ra_n s) (ra_nt s) /\ inside_axis (tile_of s i) (Fin x : num FRX) = true /\
    tile_index (axis_of s) (ta_n (tile_of s 1)) (Fin x : num FRX) = Ret i /\
    forall j, 1 <= j <= ntiles (ra_n s) (ra_nt s) -> inside_axis (tile_of s j) (Fin x : num FRX) = true -> j = i.
Proof. exact partition_fact. Qed.
Print Assumptions C100_one_tile_for_each_position.
(** the tiles share out the grid points, and none is smaller than four cells unless it is alone *)
Theorem C100_grid_points : forall s, good_axis s ->
  fold_right Z.add 0 (map (fun i => ta_n (tile_of s i)) (zrange 1 (ntiles (ra_n s) (ra_nt s)))) = ra_n s /\
  (2 <= ntiles (ra_n s) (ra_nt s) -> forall i, 1 <= i <= ntiles (ra_n s) (ra_nt s) -> 4 <= ta_n (tile_of s i)).
Proof. exact points_fact. Qed.
Print Assumptions C100_grid_points.
(** the tiles made for a species are empty, have these extents, and those at an end of the domain are marked *)
Theorem C100_initial_tiles : forall sx sy sz nppcell M, good_axis sx -> good_axis sy -> good_axis sz -> 0 <= nppcell -> 1 <= M -> ra_n sx * ra_n sy * ra_n sz * nppcell <= M ->
  exists T, @init_tiles FRX (Fin (ra_d sx)) (Fin (ra_d sy)) (Fin (ra_d sz)) (Fin (ra_lo sx)) (Fin (ra_hi sx)) (Fin (ra_lo sy)) (Fin (ra_hi sy))
      (Fin (ra_lo sz)) (Fin (ra_hi sz)) (ra_n sx) (ra_n sy) (ra_n sz) (ra_nt sx) (ra_nt sy) (ra_nt sz) nppcell = Ret T /\
    contents M (dom_of sx sy sz) T (fun _ => []) /\ laid_out sx sy sz T /\
    forall i j k, t_bound (gat T (i, j, k)) = true <->
      i = 1 \/ i = ntiles (ra_n sx) (ra_nt sx) \/ j = 1 \/ j = ntiles (ra_n sy) (ra_nt sy) \/ k = 1 \/ k = ntiles (ra_n sz) (ra_nt sz).
Proof. exact init_fact. Qed.
Print Assumptions C100_initial_tiles.
Example C100_case : good_axis ex_x /\ good_axis ex_y /\ ntiles (ra_n ex_x) (ra_nt ex_x) = 2 /\ ra_n ex_x * ra_n ex_y * ra_n ex_y * 10 <= 2000.
Proof. exact (conj ex_x_good (conj ex_y_good ex_sizes)). Qed.

(** ** C101: adding and removing a particle *)
(** a particle is added behind the others, whatever the capacity of the tile was *)
Theorem C101_add : forall N M, arithmetic N -> M < 2 ^ 31 -> forall (t : tile N) ps p, stores t ps -> t_max t <= M -> 2 * zlen ps + 1 <= M ->
  exists t', add_to_tile t p = Ret t' /\ stores t' (ps ++ [p]) /\ t_max t' <= M /\ same_extents t t'.
Proof. exact both_add. Qed.
Print Assumptions C101_add.
(** a particle is removed, the last one takes its place, all others stay, whether the arrays shrink or not *)
Theorem C101_remove : forall N M, arithmetic N -> M < 2 ^ 31 -> forall (t : tile N) l1 p l2, stores t (l1 ++ p :: l2) -> t_max t <= M ->
  exists t', rm_from_tile t (zlen l1 + 1) = Ret t' /\ t_max t' <= M /\ same_extents t t' /\
    stores t' (l1 ++ match rev l2 with [] => [] | z :: r => z :: rev r end).
Proof. exact both_rm. Qed.
Print Assumptions C101_remove.
Example C101_case (lm : Libm b64) : (arithmetic FRX /\ arithmetic (F64 lm)) /\ stores (full_tile lm) (five lm) /\ t_max (full_tile lm) <= 100 /\ 2 * zlen (five lm) + 1 <= 100 /\ 100 < 2 ^ 31.
Proof. exact (conj (both_kinds lm) (conj (full_stores lm) (full_room lm))). Qed.

(** ** C102: removing the particles chosen by a mask *)
Theorem C102_mask : forall N M, arithmetic N -> M < 2 ^ 31 -> forall (t : tile N) ps mask npart, stores t ps -> t_max t <= M -> zlen mask = zlen ps ->
  exists t' npart' l, rm_with_mask mask t npart = Ret (t', npart') /\ stores t' l /\ t_max t' <= M /\ same_extents t t' /\
    Permutation l (kept mask ps) /\ npart' = npart - (zlen ps - zlen l).
Proof. exact both_mask. Qed.
Print Assumptions C102_mask.
Example C102_case (lm : Libm b64) : stores (full_tile lm) (five lm) /\
  (do s <- rm_with_mask [false; true; false; true; false] (full_tile lm) 9; Ret (show lm (fst s), snd s)) =
  Ret ([Some [Some 4; Some 1; Some 1]; Some [Some 2; Some 1; Some 1]], 6).
Proof. exact (conj (full_stores lm) (mask_run lm)). Qed.

(** ** C103: adding a group of particles *)
(** a group that fits into the arrays, or into arrays with twice their size plus one, is added *)
Theorem C103_group : forall N M, arithmetic N -> M < 2 ^ 31 -> forall (t : tile N) ps g, stores t ps -> 2 * t_max t + 1 <= M -> zlen ps + zlen g <= 2 * t_max t + 1 ->
  exists t', add_group_to_tile t g = Ret t' /\ stores t' (ps ++ g) /\ t_max t' <= M /\ same_extents t t'.
Proof. exact both_group. Qed.
Print Assumptions C103_group.
(** any larger group is written past the end of the arrays *)
Theorem C103_large_group_refuted : forall N M, arithmetic N -> M < 2 ^ 31 -> forall (t : tile N) ps g, stores t ps -> 2 * t_max t + 1 <= M -> 2 * t_max t + 1 < zlen ps + zlen g ->
  add_group_to_tile t g = UB.
Proof. exact both_group_ub. Qed.
Print Assumptions C103_large_group_refuted.
Example C103_case (lm : Libm b64) : (t_max (small_tile lm) = 2 /\ zlen (six lm) = 6) /\ stores (small_tile lm) [bp lm 1 1 1] /\ add_group_to_tile (small_tile lm) (six lm) = UB.
Proof. exact (conj (small_sizes lm) (group_ub lm)). Qed.

(** ** C104: adding particles to a species *)
(** every particle comes into the tile with the index computed from its position, behind those that were there *)
Theorem C104_insert : forall N M, arithmetic N -> M < 2 ^ 31 -> forall D n0 ps T A npart,
  contents M D T A -> 2 * (zlen (all_particles D A) + zlen ps) + 1 <= M -> first_tile T = Ret n0 ->
  (forall p, In p ps -> exists r, target D n0 p = Ret r /\ In r (all_tiles D)) ->
  exists T' A', @py_add_particles_to_species N D ps (T, npart) = Ret (T', npart + zlen ps) /\ contents M D T' A' /\
    (forall q, In q (all_tiles D) -> same_extents (gat T q) (gat T' q)) /\
    forall r, In r (all_tiles D) -> A' r = A r ++ filter (fun p => match target D n0 p with Ret s => idx_eqb s r | _ => false end) ps.
Proof. exact both_insert. Qed.
Print Assumptions C104_insert.
(** in exact arithmetic this is the tile it is inside of *)
Theorem C104_insert_in_place : forall sx sy sz M T A ps npart, good_axis sx -> good_axis sy -> good_axis sz -> M < 2 ^ 31 ->
  contents M (dom_of sx sy sz) T A -> laid_out sx sy sz T -> 2 * (zlen (all_particles (dom_of sx sy sz) A) + zlen ps) + 1 <= M ->
  (forall p, In p ps -> finite p /\ outside (dom_of sx sy sz) p = false) ->
  exists T' A', py_add_particles_to_species (dom_of sx sy sz) ps (T, npart) = Ret (T', npart + zlen ps) /\ contents M (dom_of sx sy sz) T' A' /\ laid_out sx sy sz T' /\
    (forall r, In r (all_tiles (dom_of sx sy sz)) -> A' r = A r ++ filter (inside (gat T r)) ps).
Proof. exact insert_real. Qed.
Print Assumptions C104_insert_in_place.
Example C104_case (lm : Libm b64) : contents 100 ex_D ex_T ex_A /\ laid_out ex_x ex_y ex_y ex_T /\ contents 100 (bg_D lm) (bg_T lm) (bg_A lm) /\ first_tile (bg_T lm) = Ret (4, 5, 5) /\
  target (bg_D lm) (4, 5, 5) (bp lm 4 1 2) = Ret (2, 1, 1).
Proof. exact (conj ex_contents (conj ex_laid_out (conj (bg_contents lm) (conj (bg_first lm) (bg_target lm))))). Qed.

(** ** C105: the exchange between the tiles of one process *)
(** no particle is lost, duplicated or altered, and each is in the tile where it has to be *)
Theorem C105_exchange : forall N M, arithmetic N -> M < 2 ^ 31 -> forall D n0 (T : grid (tile N)) A,
  contents M D T A -> 2 * zlen (all_particles D A) + 1 <= M -> targets_exist D n0 T A -> first_tile T = Ret n0 ->
  exists T' A', particle_bcs_tiles D T = Ret T' /\ contents M D T' A' /\ (forall q, In q (all_tiles D) -> same_extents (gat T q) (gat T' q)) /\
    Permutation (all_particles D A') (all_particles D A) /\ forall r, In r (all_tiles D) -> Permutation (A' r) (expected D n0 T A r).
Proof. exact both_serial. Qed.
Print Assumptions C105_exchange.
(** in exact arithmetic this is the tile it is inside of *)
Theorem C105_exchange_in_place : forall sx sy sz, good_axis sx -> good_axis sy -> good_axis sz -> forall M T A,
  contents M (dom_of sx sy sz) T A -> laid_out sx sy sz T -> (forall q p, In q (all_tiles (dom_of sx sy sz)) -> In p (A q) -> finite p) ->
  M < 2 ^ 31 -> 2 * zlen (all_particles (dom_of sx sy sz) A) + 1 <= M ->
  exists T' A', particle_bcs_tiles (dom_of sx sy sz) T = Ret T' /\ contents M (dom_of sx sy sz) T' A' /\
    Permutation (all_particles (dom_of sx sy sz) A') (all_particles (dom_of sx sy sz) A) /\ in_place (dom_of sx sy sz) A A' T'.
Proof. exact serial_real. Qed.
Print Assumptions C105_exchange_in_place.
Example C105_case (lm : Libm b64) : contents 100 (bg_D lm) (bg_T lm) (bg_A lm) /\ 2 * zlen (all_particles (bg_D lm) (bg_A lm)) + 1 <= 100 /\
  targets_exist (bg_D lm) (4, 5, 5) (bg_T lm) (bg_A lm) /\ first_tile (bg_T lm) = Ret (4, 5, 5) /\
  (do T' <- particle_bcs_tiles (bg_D lm) (bg_T lm); Ret (map (fun q => show lm (gat T' q)) [(1, 1, 1); (2, 1, 1)])) =
  Ret [[Some [Some (-1); Some 1; Some 2]; Some [Some 1; Some 1; Some 2]]; [Some [Some 4; Some 1; Some 2]]].
Proof. exact (conj (bg_contents lm) (conj (bg_room lm) (conj (adjacent_exist _ _ _ _ (bg_targets lm)) (conj (bg_first lm) (bg_run lm))))). Qed.
Example C105_case_exact : contents 100 ex_D ex_T ex_A /\ laid_out ex_x ex_y ex_y ex_T /\ (forall q p, In q (all_tiles ex_D) -> In p (ex_A q) -> finite p) /\
  2 * zlen (all_particles ex_D ex_A) + 1 <= 100.
Proof. exact (conj ex_contents (conj ex_laid_out (conj ex_finite ex_room))). Qed.

(** ** C106: the same by several threads *)
(** every interleaving of the parallel loops ends with the same particles in the same order in every tile *)
Theorem C106_parallel_exchange : forall N M, arithmetic N -> M < 2 ^ 31 -> forall D n0 (T : grid (tile N)) A,
  contents M D T A -> 2 * zlen (all_particles D A) + 1 <= M -> targets_adjacent D n0 T A -> first_tile T = Ret n0 ->
  (exists res, particle_bcs_tiles_openmp D T res) /\
  exists A', (forall r, In r (all_tiles D) -> Permutation (A' r) (expected D n0 T A r)) /\ Permutation (all_particles D A') (all_particles D A) /\
    forall res, particle_bcs_tiles_openmp D T res -> exists T', res = Ret T' /\ contents M D T' A' /\ forall q, In q (all_tiles D) -> same_extents (gat T q) (gat T' q).
Proof. exact both_omp. Qed.
Print Assumptions C106_parallel_exchange.
(** in exact arithmetic for particles that have moved by less than four cells *)
Theorem C106_parallel_exchange_in_place : forall sx sy sz M T A, good_axis sx -> good_axis sy -> good_axis sz -> contents M (dom_of sx sy sz) T A -> laid_out sx sy sz T ->
  (forall q p, In q (all_tiles (dom_of sx sy sz)) -> In p (A q) -> finite p) -> M < 2 ^ 31 -> 2 * zlen (all_particles (dom_of sx sy sz) A) + 1 <= M -> all_close sx sy sz A ->
  (exists res, particle_bcs_tiles_openmp (dom_of sx sy sz) T res) /\
  exists A', Permutation (all_particles (dom_of sx sy sz) A') (all_particles (dom_of sx sy sz) A) /\
    forall res, particle_bcs_tiles_openmp (dom_of sx sy sz) T res -> exists T', res = Ret T' /\ contents M (dom_of sx sy sz) T' A' /\ in_place (dom_of sx sy sz) A A' T'.
Proof. exact omp_real_both. Qed.
Print Assumptions C106_parallel_exchange_in_place.
Example C106_case (lm : Libm b64) : targets_adjacent (bg_D lm) (4, 5, 5) (bg_T lm) (bg_A lm) /\ all_close ex_x ex_y ex_y ex_A.
Proof. exact (conj (bg_targets lm) ex_close). Qed.
