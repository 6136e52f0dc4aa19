(** C128-C131: the boundary conditions of the particles used by default, which exchange the particles between the tiles and between the
    processes in one pass (src/boundary_conditions/particle_boundaries.F90, particle_bcs_tiles_and_mpi_3d). *)
From Coq Require Import ZArith Reals List Bool Permutation.
From Verif Require Import Cxx Num NumRX NumIEEE Fortran FortranNum Grid Tiles SpecTiles TilesDomain PartBC SpecPartBC PartBCReal TilesExamples PartBCExamples PartDefault SpecPartDefault PartDefaultReal PartDefaultExamples.
Import ListNotations.
Local Open Scope Z_scope.

(** ** C128: no particle is lost or duplicated *)
(** on any number of processes, with any kinds of boundaries and any size of the send buffers: all calls end, the particles of all
    processes are those that are not removed on purpose, and a tile has those that stay in it, those that come from other tiles and those
    that come from other processes and belong there *)
Theorem C128_default_exchange : forall N M, arithmetic N -> M < 2 ^ 31 ->
  forall npid bs n1 n2 n3 D B W (A : idx -> idx -> list (part N)) n0, 0 <= npid -> 1 <= bs -> 1 <= n1 -> 1 <= n2 -> 1 <= n3 ->
  let np := (n1, n2, n3) in placeable_all np D B n0 W A M -> arrivals_have_edge_tile np D B n0 W A ->
  2 * zlen (world np D A) + 1 <= M -> zlen (world np D A) * (npid + 7) + 1 < 2 ^ 31 ->
  exists T' A', (forall r, In r (processes np) ->
     particle_bcs_tiles_and_mpi at_once bs npid np D B W r = Ret (T' r, snd (W r) + zlen (to_arrive np D B n0 W A r)) /\
     contents M (D r) (T' r) (A' r) /\ (forall q, In q (all_tiles (D r)) -> same_extents (gat (fst (W r)) q) (gat (T' r) q)) /\
     forall q, In q (all_tiles (D r)) -> Permutation (A' r q) (to_tile (D r) (B r) (n0 r) (fst (W r)) (A r) q ++ filter (has_default_target D n0 r q) (to_arrive np D B n0 W A r))) /\
  Permutation (world np D A') (to_exist np D B n0 W A).
Proof. exact both_default. Qed.
Print Assumptions C128_default_exchange.
Example C128_case (lm : Libm b64) : arithmetic (F64 lm) /\ placeable_all (2, 1, 1) (mp_D lm 0) (mp_B lm 0) mp_n0 (mp_W lm) (mp_A lm) 100 /\
  arrivals_have_edge_tile (2, 1, 1) (mp_D lm 0) (mp_B lm 0) mp_n0 (mp_W lm) (mp_A lm) /\
  (2 * zlen (world (2, 1, 1) (mp_D lm 0) (mp_A lm)) + 1 <= 100 /\ zlen (world (2, 1, 1) (mp_D lm 0) (mp_A lm)) * (1 + 7) + 1 < 2 ^ 31) /\
  map (fun r => mp_show lm (particle_bcs_tiles_and_mpi at_once 1 1 (2, 1, 1) (mp_D lm 0) (mp_B lm 0) (mp_W lm) r)) (processes (2, 1, 1)) =
  [Ret ([[Some [Some 2; Some 2; Some 2]; Some [Some 0; Some 1; Some 0]]; []], 3);
   Ret ([[]; [Some [Some 15; Some 1; Some 1]; Some [Some 15; Some 1; Some 2]]], 3)].
Proof. exact (conj (proj2 (both_kinds lm)) (conj (mp_placeable lm 0 (or_introl eq_refl)) (conj (mp_edge lm 0 (or_introl eq_refl)) (conj (mp_room lm 0) (mp_default lm))))). Qed.

(** ** C129: one step of the particles in a periodic domain *)
(** from any state where each particle is less than one cell away from its tile, in exact arithmetic and with at least two tiles in each
    direction: afterwards each particle is in the process and in the tile it is inside of, at its position modulo the periods *)
Theorem C129_default_periodic : forall gx gy gz, good_gaxis gx -> good_gaxis gy -> good_gaxis gz ->
  let np := g_procs gx gy gz in let D := rank_dom gx gy gz in let B := rank_bnd gx gy gz in
  forall npid bs M W A, M < 2 ^ 31 -> 0 <= npid -> 1 <= bs ->
  2 * zlen (world np D A) + 1 <= M -> zlen (world np D A) * (npid + 7) + 1 < 2 ^ 31 ->
  (forall r, In r (processes np) -> contents M (D r) (fst (W r)) (A r) /\ rank_tiles gx gy gz r (fst (W r)) /\ all_one_cell gx gy gz r (A r)) ->
  (forall r, In r (processes np) -> several_tiles (D r)) ->
  exists T' A', 
  (forall r, In r (processes np) ->
     particle_bcs_tiles_and_mpi at_once bs npid np D B W r = Ret (T' r, snd (W r) + zlen (to_arrive np D B (rank_first gx gy gz) W A r)) /\
     contents M (D r) (T' r) (A' r) /\ rank_tiles gx gy gz r (T' r) /\
     forall q p, In q (all_tiles (D r)) -> In p (A' r q) -> outside (D r) p = false /\ inside (gat (T' r) q) p = true) /\
  Permutation (world np D A') (map (wrap gx gy gz) (world np D A)).
Proof. exact default_periodic_fact. Qed.
Print Assumptions C129_default_periodic.
Example C129_case : good_gaxis eg_x /\ good_gaxis eh_y /\ zlen (world (g_procs eg_x eh_y eh_y) (rank_dom eg_x eh_y eh_y) eh_A) = 3 /\
  (forall r, In r (processes (g_procs eg_x eh_y eh_y)) -> contents 100 (rank_dom eg_x eh_y eh_y r) (fst (eh_W r)) (eh_A r) /\ rank_tiles eg_x eh_y eh_y r (fst (eh_W r)) /\ all_one_cell eg_x eh_y eh_y r (eh_A r)) /\
  forall r, In r (processes (g_procs eg_x eh_y eh_y)) -> several_tiles (rank_dom eg_x eh_y eh_y r).
Proof. exact (conj eg_x_good (conj eh_y_good (conj eh_world (conj eh_state eh_several)))). Qed.
(** with a single tile in a direction it is false: a particle up to half a cell below the domain of the process stays where it is, as the
    tile starts there and the particles inside of their tile are passed over *)
Theorem C129_single_tile_refuted : forall gx gy gz a b c M T A (p : part FRX) x y z,
  good_gaxis gx -> good_gaxis gy -> good_gaxis gz -> In (a, b, c) (processes (g_procs gx gy gz)) ->
  contents M (rank_dom gx gy gz (a, b, c)) T A -> rank_tiles gx gy gz (a, b, c) T ->
  ag_nt (dX (rank_dom gx gy gz (a, b, c))) = 1 -> px p = Fin x -> py p = Fin y -> pz p = Fin z ->
  (g_left gx a - g_d gx / 2 <= x < g_left gx a)%R -> (g_left gy b <= y < g_left gy (b + 1))%R -> (g_left gz c <= z < g_left gz (c + 1))%R ->
  exists q, In q (all_tiles (rank_dom gx gy gz (a, b, c))) /\ outside (rank_dom gx gy gz (a, b, c)) p = true /\
    forall n0, lot_of (rank_dom gx gy gz (a, b, c)) (rank_bnd gx gy gz (a, b, c)) n0 T q p = InTile q p.
Proof. exact single_tile. Qed.
Print Assumptions C129_single_tile_refuted.
Example C129_single_tile_case : contents 100 (rank_dom eg_y eg_y eg_y (0, 0, 0)) ei_T (fun _ => []) /\ rank_tiles eg_y eg_y eg_y (0, 0, 0) ei_T /\
  ag_nt (dX (rank_dom eg_y eg_y eg_y (0, 0, 0))) = 1 /\ (g_left eg_y 0 - g_d eg_y / 2 <= -1 / 4 < g_left eg_y 0)%R /\ (g_left eg_y 0 <= 1 < g_left eg_y (0 + 1))%R.
Proof. exact ei_state. Qed.

(** ** C130: the kinds of boundaries *)
(** a particle outside of the domain in a direction is treated as by the other routine (C110) unless the boundary is reflecting *)
Theorem C130_kinds : forall t (B : bnd FRX) a (p : part FRX) x l h,
  b_plo (b_axis B a) = Fin l -> b_phi (b_axis B a) = Fin h -> (l <= h)%R -> pos a p = Fin x ->
  b_klo (b_axis B a) <> 2 -> b_khi (b_axis B a) <> 2 -> default_axis t B a p = bc_axis t B a p.
Proof. exact kinds_same. Qed.
Print Assumptions C130_kinds.
(** at a reflecting boundary the particle is not reflected but comes in at the other side, with its momentum *)
Theorem C130_reflecting_refuted : forall g t (B : bnd FRX) a (p : part FRX) x, good_gaxis g ->
  b_axis B a = kind_axis g 2 2 0 0 0 -> pos a p = Fin x -> (x < g_lo g)%R ->
  default_axis t B a p = Goes (set_pos a (Fin (x + (g_hi g - g_lo g)) : num FRX) p) (-1).
Proof. exact reflect_default. Qed.
Print Assumptions C130_reflecting_refuted.
(** a particle beyond an absorbing boundary of the process in one direction, and outside of its tile, is removed *)
Theorem C130_absorbing : forall D (B : bnd FRX) n0 T q a (p : part FRX) l h x,
  (forall a', b_plo (b_axis B a') = Fin (l a') /\ b_phi (b_axis B a') = Fin (h a') /\ (l a' <= h a')%R /\ pos a' p = Fin (x a')) ->
  (forall a', a' <> a -> (l a' <= x a' < h a')%R) ->
  ((x a < l a)%R /\ b_atlo (b_axis B a) = true /\ b_klo (b_axis B a) = 1) \/ ((h a <= x a)%R /\ b_athi (b_axis B a) = true /\ b_khi (b_axis B a) = 1) ->
  inside (gat T q) p = false -> outside D p = true -> lot_of D B n0 T q p = Removed.
Proof. intros D B n0 T q a p l h x H Ho Ha Ei Eo. unfold lot_of. now rewrite Ei, Eo, (absorbed_any (gat T q) B a p l h x H Ho Ha). Qed.
Print Assumptions C130_absorbing.
(** an absorbing boundary one cell inside of the domain: a particle between it and the end of the domain is outside of the domain of the
    particles, the other routine removes it, and this one keeps it since it is inside of its tile *)
Theorem C130_absorbing_refuted : let p := fp (1 / 2) 1 1 in let T := eg_T (0, 0, 0) in
  outside ab_D p = true /\ bc_particle (gat T (1, 1, 1)) ab_B p = Drop /\ forall n0, lot_of ab_D ab_B n0 T (1, 1, 1) p = InTile (1, 1, 1) p.
Proof. exact ab_not_removed. Qed.
Print Assumptions C130_absorbing_refuted.
(** absorbing boundaries at the ends of the domain, binary64: the particle below it is removed *)
Example C130_case (lm : Libm b64) : placeable_all (2, 1, 1) (mp_D lm 1) (mp_B lm 1) mp_n0 (mp_W lm) (mp_A lm) 100 /\ default_run lm at_once 1 =
  [Ret ([[Some [Some 2; Some 2; Some 2]]; [Some [Some 16; Some 1; Some 0]]], 3);
   Ret ([[]; [Some [Some 15; Some 1; Some 1]]], 2)].
Proof. exact (conj (mp_placeable lm 1 (or_intror (or_introl eq_refl))) (mp_default_absorbing lm)). Qed.

(** ** C131: counts *)
(** the count of the species is not the number of its particles: those that leave are not subtracted.  Both processes have two
    particles before and after, and count three. *)
Theorem C131_count_refuted : forall lm : Libm b64, placeable_all (2, 1, 1) (mp_D lm 0) (mp_B lm 0) mp_n0 (mp_W lm) (mp_A lm) 100 /\
  (forall r, In r (processes (2, 1, 1)) -> snd (mp_W lm r) = zlen (all_particles (mp_D lm 0 r) (mp_A lm r))) /\
  default_run lm at_once 0 =
  [Ret ([[Some [Some 2; Some 2; Some 2]; Some [Some 0; Some 1; Some 0]]; []], 3);
   Ret ([[]; [Some [Some 15; Some 1; Some 1]; Some [Some 15; Some 1; Some 2]]], 3)].
Proof. exact mp_counts. Qed.
Print Assumptions C131_count_refuted.
(** the variable with the number of particles in a message is overwritten while it may still be read: if it is read one
    message later the exchange fails *)
Theorem C131_late_counts_refuted : forall lm : Libm b64, placeable_all (2, 1, 1) (mp_D lm 0) (mp_B lm 0) mp_n0 (mp_W lm) (mp_A lm) 100 /\
  arrivals_have_edge_tile (2, 1, 1) (mp_D lm 0) (mp_B lm 0) mp_n0 (mp_W lm) (mp_A lm) /\
  default_run lm (fun _ _ => 1%nat) 0 = [Throw; UB].
Proof. exact mp_late_counts. Qed.
Print Assumptions C131_late_counts_refuted.
