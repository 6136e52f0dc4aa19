(** C107-C110: the split of the domain among the processes (src/parallelization/mpi/mpi_routines.F90) and the boundary conditions
    of the particles (src/boundary_conditions/particle_boundaries.F90, particle_bcs_mpi_blocking). *)
From Coq Require Import ZArith Reals List Bool Permutation.
From Verif Require Import LoadBalance Cxx Num NumRX NumIEEE Fortran FortranNum Grid Tiles SpecTiles PartBC SpecPartBC PartBCReal TilesExamples PartBCExamples.
Import ListNotations.
Local Open Scope Z_scope.

(** ** C107: the split of the cells among the processes *)
(** every process gets the cells behind those of the one before, all cells are given away, and the shares differ by at most one *)
Theorem C107_split : forall n np, 1 <= np -> 0 <= n -> exists first last : Z -> Z,
  regular_split n np = Ret (map (fun c => Some (first c)) (zrange 0 (np - 1)), map (fun c => Some (last c)) (zrange 0 (np - 1))) /\
  first 0 = 0 /\ last (np - 1) = n - 1 /\ (forall c, 0 <= c < np - 1 -> first (c + 1) = last c + 1) /\
  forall c, 0 <= c < np -> n / np <= last c - first c + 1 <= n / np + 1.
Proof. exact split_fact. Qed.
Print Assumptions C107_split.
(** the local numbers of cells computed from it add up to n *)
Theorem C107_local_sizes : forall n np, 1 <= np -> 0 <= n -> exists firsts lasts dims,
  regular_split n np = Ret (map Some firsts, map Some lasts) /\ zlen firsts = np /\ zlen lasts = np /\
  mapM (compute_currproc_array_dimensions firsts lasts) (zrange 0 (np - 1)) = Ret dims /\
  fold_right Z.add 0 dims = n /\ forall d, In d dims -> n / np <= d <= n / np + 1.
Proof. exact dims_fact. Qed.
Print Assumptions C107_local_sizes.
(** in exact arithmetic the local domains are adjacent and cover the domain, and the geometry of each is one for which
    C100 to C106 hold *)
Theorem C107_local_domains : forall g c offlo offhi, good_gaxis g -> 0 <= c < g_np g -> exists cmin cmax,
  (exists firsts lasts, regular_split (g_n g) (g_np g) = Ret (firsts, lasts) /\ get1 firsts (c + 1) = Ret (Some cmin) /\ get1 lasts (c + 1) = Ret (Some cmax)) /\
  @process_axis FRX 0 0 offlo offhi (Fin (g_lo g)) (Fin (g_hi g)) (g_n g) (g_np g) (g_nt g) c cmin cmax = (axis_of (rank_axis g c), periodic_axis g c) /\
  good_axis (rank_axis g c) /\ g_left g 0 = g_lo g /\ g_left g (g_np g) = g_hi g /\ (g_left g c + g_d g <= g_left g (c + 1))%R.
Proof. exact setup_fact. Qed.
Print Assumptions C107_local_domains.
Example C107_case : good_gaxis eg_x /\ regular_split 10 4 = Ret ([Some 0; Some 2; Some 4; Some 7], [Some 1; Some 3; Some 6; Some 9]).
Proof. exact (conj eg_x_good split_run). Qed.

(** ** C108: the boundary conditions lose no particle that they do not remove on purpose *)
(** on any number of processes, with any kinds of boundaries: all calls end, the particles of all processes are those
    that survive, a tile has its particles that stay and those that arrive and belong there, and the count of the species is right *)
Theorem C108_exchange_between_processes : forall N M, arithmetic N -> M < 2 ^ 31 ->
  forall npid n1 n2 n3 D B W (A : idx -> idx -> list (part N)) n0, 0 <= npid -> 1 <= n1 -> 1 <= n2 -> 1 <= n3 ->
  consistent (n1, n2, n3) D W A M npid n0 -> arrivals_have_tile (n1, n2, n3) D B W A n0 ->
  2 * zlen (world (n1, n2, n3) D A) + 1 <= M -> zlen (world (n1, n2, n3) D A) * (npid + 7) + 1 < 2 ^ 31 ->
  exists T' A', (forall r, In r (processes (n1, n2, n3)) ->
     particle_bcs_mpi_blocking npid (n1, n2, n3) D B W r = Ret (T' r, snd (W r) + zlen (all_particles (D r) (A' r)) - zlen (all_particles (D r) (A r))) /\
     contents M (D r) (T' r) (A' r) /\ (forall q, In q (all_tiles (D r)) -> same_extents (gat (fst (W r)) q) (gat (T' r) q)) /\
     forall q, In q (all_tiles (D r)) -> Permutation (A' r q) (staying (B r) (fst (W r)) (A r) q ++ filter (has_target D r q n0) (arriving (n1, n2, n3) D B W A r))) /\
  Permutation (world (n1, n2, n3) D A') (survivors (n1, n2, n3) D B W A).
Proof. exact both_mpi. Qed.
Print Assumptions C108_exchange_between_processes.
Example C108_case (lm : Libm b64) : arithmetic (F64 lm) /\ consistent (2, 1, 1) (mp_D lm 0) (mp_W lm) (mp_A lm) 100 1 mp_n0 /\
  arrivals_have_tile (2, 1, 1) (mp_D lm 0) (mp_B lm 0) (mp_W lm) (mp_A lm) mp_n0 /\
  (2 * zlen (world (2, 1, 1) (mp_D lm 0) (mp_A lm)) + 1 <= 100 /\ zlen (world (2, 1, 1) (mp_D lm 0) (mp_A lm)) * (1 + 7) + 1 < 2 ^ 31) /\
  map (fun r => mp_show lm (particle_bcs_mpi_blocking 1 (2, 1, 1) (mp_D lm 0) (mp_B lm 0) (mp_W lm) r)) (processes (2, 1, 1)) =
  [Ret ([[Some [Some 2; Some 2; Some 2]; Some [Some 0; Some 1; Some 0]]; []], 2);
   Ret ([[]; [Some [Some 15; Some 1; Some 1]; Some [Some 15; Some 1; Some 2]]], 2)].
Proof. exact (conj (proj2 (both_kinds lm)) (conj (mp_consistent lm 0) (conj (mp_arrivals lm) (conj (mp_room lm 0) (mp_run lm))))). Qed.

(** ** C109: one step of the particles in a periodic domain *)
(** from any state where each particle is less than one cell away from its tile, in exact arithmetic: after the exchanges between the tiles
    and between the processes each particle is in the process and in the tile it is inside of, at its position modulo the periods *)
Theorem C109_periodic : forall gx gy gz, good_gaxis gx -> good_gaxis gy -> good_gaxis gz ->
  let np := g_procs gx gy gz in let D := rank_dom gx gy gz in let B := rank_bnd gx gy gz in
  forall npid M W A, M < 2 ^ 31 -> 0 <= npid ->
  (forall r q p, In r (processes np) -> In q (all_tiles (D r)) -> In p (A r q) -> zlen (ppid p) = npid) ->
  2 * zlen (world np D A) + 1 <= M -> zlen (world np D A) * (npid + 7) + 1 < 2 ^ 31 ->
  (forall r, In r (processes np) -> contents M (D r) (fst (W r)) (A r) /\ rank_tiles gx gy gz r (fst (W r)) /\ all_one_cell gx gy gz r (A r)) ->
  exists T1, (forall r, In r (processes np) -> particle_bcs_tiles (D r) (fst (W r)) = Ret (T1 r)) /\
  exists T' A', 
  (forall r, In r (processes np) ->
     particle_bcs_mpi_blocking npid np D B (fun s => (T1 s, snd (W s))) r = Ret (T' r, snd (W r) + zlen (all_particles (D r) (A' r)) - zlen (all_particles (D r) (A r))) /\
     contents M (D r) (T' r) (A' r) /\ rank_tiles gx gy gz r (T' r) /\
     forall q p, In q (all_tiles (D r)) -> In p (A' r q) -> outside (D r) p = false /\ inside (gat (T' r) q) p = true) /\
  Permutation (world np D A') (map (wrap gx gy gz) (world np D A)).
Proof. exact periodic_serial. Qed.
Print Assumptions C109_periodic.
(** the same for any schedule of the parallel exchange between the tiles *)
Theorem C109_periodic_openmp : forall gx gy gz, good_gaxis gx -> good_gaxis gy -> good_gaxis gz ->
  let np := g_procs gx gy gz in let D := rank_dom gx gy gz in let B := rank_bnd gx gy gz in
  forall npid M W A, M < 2 ^ 31 -> 0 <= npid ->
  (forall r q p, In r (processes np) -> In q (all_tiles (D r)) -> In p (A r q) -> zlen (ppid p) = npid) ->
  2 * zlen (world np D A) + 1 <= M -> zlen (world np D A) * (npid + 7) + 1 < 2 ^ 31 ->
  (forall r, In r (processes np) -> contents M (D r) (fst (W r)) (A r) /\ rank_tiles gx gy gz r (fst (W r)) /\ all_one_cell gx gy gz r (A r)) ->
  (forall r, In r (processes np) -> (exists res, particle_bcs_tiles_openmp (D r) (fst (W r)) res) /\
    forall res, particle_bcs_tiles_openmp (D r) (fst (W r)) res -> exists T1, res = Ret T1) /\
  forall T1, (forall r, In r (processes np) -> particle_bcs_tiles_openmp (D r) (fst (W r)) (Ret (T1 r))) ->
  exists T' A',
  (forall r, In r (processes np) ->
     particle_bcs_mpi_blocking npid np D B (fun s => (T1 s, snd (W s))) r = Ret (T' r, snd (W r) + zlen (all_particles (D r) (A' r)) - zlen (all_particles (D r) (A r))) /\
     contents M (D r) (T' r) (A' r) /\ rank_tiles gx gy gz r (T' r) /\
     forall q p, In q (all_tiles (D r)) -> In p (A' r q) -> outside (D r) p = false /\ inside (gat (T' r) q) p = true) /\
  Permutation (world np D A') (map (wrap gx gy gz) (world np D A)).
Proof. exact periodic_omp. Qed.
Print Assumptions C109_periodic_openmp.
Example C109_case : good_gaxis eg_x /\ good_gaxis eg_y /\
  (forall r q p, In r (processes (g_procs eg_x eg_y eg_y)) -> In q (all_tiles (rank_dom eg_x eg_y eg_y r)) -> In p (eg_A r q) -> zlen (ppid p) = 1) /\
  zlen (world (g_procs eg_x eg_y eg_y) (rank_dom eg_x eg_y eg_y) eg_A) = 3 /\
  forall r, In r (processes (g_procs eg_x eg_y eg_y)) ->
    contents 100 (rank_dom eg_x eg_y eg_y r) (fst (eg_W r)) (eg_A r) /\ rank_tiles eg_x eg_y eg_y r (fst (eg_W r)) /\ all_one_cell eg_x eg_y eg_y r (eg_A r).
Proof. exact (conj eg_x_good (conj eg_y_good (conj eg_pid (conj eg_world eg_state)))). Qed.
(** in binary64 a particle slightly below the domain is rounded to the upper end of it, outside of the process that gets it *)
Theorem C109_binary64_refuted : forall lm : Libm b64, exists t p', t = gat (mp_T lm (0, 0, 0)) (1, 1, 1) /\
  bc_particle t (mp_B lm 0 (0, 0, 0)) (tiny lm) = Leave p' (-1, 0, 0) /\
  outside (mp_D lm 0 (neighbour (2, 1, 1) (0, 0, 0) (-1, 0, 0))) p' = true.
Proof. exact tiny_wrap. Qed.
Print Assumptions C109_binary64_refuted.

(** ** C110: absorbing, reflecting and reinjecting boundaries, in exact arithmetic *)
(** an absorbing boundary at distance o from an end of the domain, inside of it, removes the particles beyond it *)
Theorem C110_absorbing_lower : forall g o c t (B : bnd FRX) a (p : part FRX) x, good_gaxis g -> (g_left g c <= g_lo g + o < g_left g (c + 1))%R ->
  b_axis B a = kind_axis g 1 0 o 0 c -> pos a p = Fin x -> (x < g_lo g + o)%R -> bc_axis t B a p = Gone.
Proof. exact absorb_low. Qed.
Print Assumptions C110_absorbing_lower.
Theorem C110_absorbing_upper : forall g o c t (B : bnd FRX) a (p : part FRX) x, good_gaxis g -> (g_left g c <= g_hi g + o < g_left g (c + 1))%R ->
  b_axis B a = kind_axis g 0 1 0 o c -> pos a p = Fin x -> (g_hi g + o <= x)%R -> bc_axis t B a p = Gone.
Proof. exact absorb_high. Qed.
Print Assumptions C110_absorbing_upper.
(** with the default offset 0 no process has the upper boundary: an absorbing or reinjecting one lets all particles through,
    into the first process *)
Theorem C110_upper_boundary_refuted : forall g k c t (B : bnd FRX) a (p : part FRX) x, good_gaxis g -> 0 <= c < g_np g -> k = 1 \/ k = 3 ->
  b_axis B a = kind_axis g 0 k 0 0 c -> pos a p = Fin x -> (g_left g (c + 1) <= x)%R -> bc_axis t B a p = Goes p 1.
Proof. exact high_zero. Qed.
Print Assumptions C110_upper_boundary_refuted.
(** a reflecting boundary reverses the momentum and brings a particle that is less than a cell outside back into the domain, by one cell *)
Theorem C110_reflecting_lower : forall g t (B : bnd FRX) a (p : part FRX) x, good_gaxis g ->
  b_axis B a = kind_axis g 2 2 0 0 0 -> pos a p = Fin x -> (g_lo g - g_d g < x < g_lo g)%R ->
  bc_axis t B a p = Goes (flip a (set_pos a (Fin (x + g_d g) : num FRX) p)) 0 /\ (g_lo g <= x + g_d g < g_left g 1)%R.
Proof. exact reflect_low. Qed.
Print Assumptions C110_reflecting_lower.
Theorem C110_reflecting_upper : forall g t (B : bnd FRX) a (p : part FRX) x, good_gaxis g ->
  b_axis B a = kind_axis g 2 2 0 0 (g_np g - 1) -> pos a p = Fin x -> (g_hi g <= x < g_hi g + g_d g)%R ->
  bc_axis t B a p = Goes (flip a (set_pos a (Fin (x - g_d g) : num FRX) p)) 0 /\ (g_left g (g_np g - 1) <= x - g_d g < g_hi g)%R.
Proof. exact reflect_high. Qed.
Print Assumptions C110_reflecting_upper.
(** a reinjected particle is at rest and inside of its tile *)
Theorem C110_reinjecting_lower : forall g c o t (B : bnd FRX) a (p : part FRX) x, good_gaxis g -> (g_left g c <= g_lo g + o < g_left g (c + 1))%R ->
  b_axis B a = kind_axis g 3 0 o 0 c -> finite p -> pos a p = Fin x -> (x < g_lo g + o)%R -> wide_tile t B ->
  exists p', bc_axis t B a p = Stays p' /\ inside t p' = true /\ pux p' = Fin 0%R /\ puy p' = Fin 0%R /\ puz p' = Fin 0%R.
Proof. exact reinject_low. Qed.
Print Assumptions C110_reinjecting_lower.
(** in binary64, with absorbing boundaries in x: the particle below the domain is removed, that above it is now in the first process *)
Example C110_case (lm : Libm b64) : good_gaxis eg_x /\ map (fun r => mp_show lm (particle_bcs_mpi_blocking 1 (2, 1, 1) (mp_D lm 1) (mp_B lm 1) (mp_W lm) r)) (processes (2, 1, 1)) =
  [Ret ([[Some [Some 2; Some 2; Some 2]]; [Some [Some 16; Some 1; Some 0]]], 2);
   Ret ([[]; [Some [Some 15; Some 1; Some 1]]], 1)].
Proof. exact (conj eg_x_good (mp_absorbing lm)). Qed.
Example C110_case_exact : let B := Bnd (kind_axis eg_x 3 0 0 0 0) (periodic_axis eg_y 0) (periodic_axis eg_y 0) in
  wide_tile (gat (eg_T (0, 0, 0)) (1, 1, 1)) B /\ finite (fp (-1 / 2) 1 1) /\ (g_left eg_x 0 <= g_lo eg_x + 0 < g_left eg_x (0 + 1))%R /\
  (g_left eg_x 1 <= g_hi eg_x + -1 < g_left eg_x (1 + 1))%R /\ (g_lo eg_x - g_d eg_x < -1 / 2 < g_lo eg_x + 0)%R.
Proof. exact kinds_case. Qed.
