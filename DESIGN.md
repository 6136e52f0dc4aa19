# Design of the formal model of thaisacs/PICSAR

The model covers the C++ part of PICSAR first (the QED library in
`src/multi_physics/QED/src` and the test program in
`src/multi_physics/test_program/src`), then the Fortran PIC kernels.
All modelling is in Coq 8.16.1 under `rocq/theories` (logical name `Verif`).

## 1. How the code is modelled

### Control and memory
* Every C++ function becomes a total Gallina function in an outcome monad
  `out A` with four outcomes: `Ret a`, `UB` (undefined behaviour: out-of-range
  access, use after free, double free, float-to-integer conversion of an
  unrepresentable value, indeterminate size), `Throw` (a C++ exception) and
  `OutOfFuel` (a loop that did not finish within the given fuel).
* `size_t` is `Z` with explicit `mod 2^64`; `picsar_vector::operator[](int)`
  converts its argument to a signed 32 bit `int` first, as the C++ does.
* Loops are structural recursion, or fuel recursion whose exhaustion is the
  separate outcome `OutOfFuel`, which theorems exclude.

### Numbers
Numeric code is written once, over a record `NumOps` of operations of the type
`_REAL`.  Three kinds of theorem are stated:
* (G) for every `NumOps`: structure, control flow, bounds, who reads what. These
  hold for `float`, `double` and anything else.
* (X) for the instance `RX`: real numbers extended with `+inf`, `-inf`, `NaN`
  and exact arithmetic (`log 0 = -inf`, `0*inf = NaN`, ...). Used for the
  mathematical content. Rounding is *not* modelled at this level.
* (F) for the instance `B64`/`B32`: Flocq's IEEE-754 binary64/binary32 arithmetic
  (round to nearest even). Transcendental functions are parameters there.
  Used for statements about rounding and for refutations.

Boost special functions, quadrature, root finder, `tgamma` and the Mersenne
twister are parameters (oracles) of the model.  Every theorem that needs a fact
about an oracle has it as an explicit hypothesis.

### Units
`PXRMP_WITH_SI_UNITS` / `PXRMP_WITH_NORMALIZED_UNITS` is a boolean parameter of
the model.  The numeric constants of `qed_commons.h` are modelled as decimal
literals, products and quotients exactly as written.

## 2. Properties: what is modelled and how it is proved

| Id | Model | Statements, vocabulary | Proof |
|----|-------|------------------------|-------|
| C01-C06 | `PicsarVector.v`: heap of blocks, vectors as (pointer, size, owner flag), programs as lists of operations | `PropVector.v`, `SpecVector.v` (independent lists) | ownership invariant by induction on the program; refinement to the list semantics; findings by explicit program (`VectorProofs.v`) |
| C07-C12 | `Utilities.v` | `PropUtilities.v`, `Spec.v` | loop invariants generic in the comparison; closed forms of the grid loops, real analysis; Poisson loop against the exponential series; termination in floats by strict increase (`UtilitiesProofs.v`, `LogLinLogProofs.v`, `PoissonIEEE.v`) |
| C13-C20 | `LookupTables.v`, `TableIO.v` (byte streams, little endian `size_t`) | `PropTables.v`, `Spec.v` | upper-bound specification, floor arithmetic, field algebra; binary64 refutations by computation; round trip by induction on lists (`TableProofs.v`, `TableIEEE.v`, `TableIOProofs.v`) |
| C21-C25, C57 | `VecFun.v`, `ChiFun.v`, `Units.v` | `PropChi.v`, `SpecPhys.v` | ring and field identities over R, Lorentz boosts (`ChiProofs.v`) |
| C26-C31, C41, C42 | `BreitWheeler.v`, `QuantumSync.v` | `PropEvolve.v`, `SpecQED.v` | case analysis, real algebra, table lemmas; binary64/32 for every libm (`EvolveProofs.v`, `RateProofs.v`, `EvolveIEEE.v`) |
| C32-C38 | `BreitWheeler.v`, `OmpFor.v`: OpenMP loop as arbitrary interleaving of row writes | `PropPairs.v`, `SpecQED.v` | invariant of the search loop, real algebra, commutation of disjoint writes (`PairProofs.v`, `PairIEEE.v`, `OmpProofs.v`) |
| C39, C40 | `EngineCalls.v`: the public interface as calls on engine objects over an abstract generator | `PropEngines.v`, `SpecEngines.v` | induction on the history (`EngineProofs.v`) |
| C43-C45, C58, C59 | `QuantumSync.v` | `PropEmission.v`, `SpecQED.v` | vector algebra, square-root inequalities; C45 in Flocq for every format (`EmissionProofs.v`, `EmissionIEEE.v`) |
| C46-C48 | `Schwinger.v` | `PropSchwinger.v`, `SpecSchwinger.v` | real analysis, the Poisson theorem; binary32 refutation (`SchwingerProofs.v`, `SchwingerIEEE.v`) |
| C49-C53 | `TestProgram.v`: species as structure of arrays, processes as functions | `PropSpecies.v`, `SpecSpecies.v` (a list of particles) | refinement of every operation to the list, induction on histories (`SpeciesProofs.v`, `SpeciesHistory.v`, `SwapProofs.v`, `SpeciesTheorems.v`) |
| C54, C55 | pushers of `TestProgram.v` | `PropSpecies.v`, `SpecMotion.v` | real algebra (`MotionProofs.v`) |
| C56, C60, C61 | `TestMain.v`: `test_BW` of main.cpp | `PropSpecies.v`, `SpecMain.v` | invariant of the time loop, permutations (`MainProofs.v`, `PlaceProofs.v`) |
| C62-C66 | `LoadBalance.v` on the Fortran layer `Fortran.v`, `FortranNum.v` | `PropDecomp.v`, `SpecDecomp.v` | loop invariants, linear arithmetic; C65 exact part by an invariant on prefix sums (`DecompProofs.v`, `BalanceProofs.v`) |
| C67 | `Sorting.v` | `PropDecomp.v`, `SpecSorting.v` | invariants of the three phases of the counting sort, `Int_part` for the bins (`SortingProofs.v`) |
| C68 | `Pushers.v` | `PropPushers.v`, `SpecPush.v` | loop invariants for any arithmetic; the scheme is stated as equations without the formulas of the code and shown to have one solution (`PusherProofs.v`) |
| C69 | `Pushers.v` | `PropPushers.v`, `SpecPush.v` | the quartic for gamma has one positive root; field and algebra on R (`PusherProofs.v`) |
| C70 | `Pushers.v` | `PropPushers.v`, `SpecPush.v` | algebra on R on top of C68 (`PushFacts.v`) |
| C71 | `Pushers.v` | `PropPushers.v` | algebra on R, induction on the array (`PusherProofs.v`, `PushFacts.v`) |
| C72 | `Grid.v`, `Yee.v` | `PropYee.v`, `SpecSolver.v` | statements of different cells commute, so every interleaving gives the result of the sequential loop (`GridLemmas.v`, `YeeProofs.v`, `YeeOmp.v`); refutations by one cell that reads out of bounds (`YeeHist.v`) |
| C73 | `Yee.v` | `PropYee.v`, `SpecYee.v`, `SpecSolver.v` | loops over R give the curl (`YeePush.v`, `YeePush2.v`); differences along two axes commute, so div curl = 0 for any order (`YeeReal.v`, `YeeDiv.v`, `YeeFacts.v`); induction on the history (`YeeHist.v`) |
| C74 | `Yee.v` | `PropYee.v`, `SpecYee.v`, `SpecSolver.v` | as C73 with the current |
| C75 | `Yee.v` | `PropYee.v`, `SpecYee.v`, `SpecSolver.v` | as C73; linearity of finite sums (`YeeHist.v`) |
| C76, C77, C79 | `Deposit.v` | `PropDeposit.v`, `SpecDeposit.v` | the shape factors are the B-splines and their sums are known polynomials (`Splines.v`); induction on the particles, sums over boxes (`Sums.v`, `DepositProofs.v`) |
| C78 | `Deposit.v` | `PropDeposit.v`, `SpecDeposit.v` | FLOOR/NINT bracket the position; induction on the particles |
| C80 | `Deposit.v` | `PropDeposit.v`, `SpecDeposit.v` | the unrolled updates are the loop (`DepositProofs.v`) |
| C81 | `Deposit.v` | `PropDeposit.v`, `SpecDeposit.v` | additions to an array commute, induction on `Permutation` (`DepositMore.v`) |
| C82 | `Deposit.v` | `PropDeposit.v`, `SpecDeposit.v` | the sum of the weights as polynomial in the offset, bounded on [0, 1] (`DepositMore.v`) |
| C83, C84 | `Esirkepov.v` | `PropEsirkepov.v`, `SpecDeposit.v`, `SpecCurrent.v` | the loops are prefix sums of the one-dimensional fluxes (`EskLoops.v`), whose differences telescope (`EskReal.v`, `EskCore.v`); induction on the particles |
| C85, C86 | `Esirkepov.v` | `PropEsirkepov.v`, `SpecCurrent.v` | the same loops as lists of updates, in bounds or not (`EskProofs.v`) |
| C87, C88 | `Esirkepov.v` | `PropEsirkepov.v`, `SpecCurrent.v` | induction on the loops; the shape of order above three is zero (`EskFacts.v`) |
| C89 | `Esirkepov.v`, `Deposit.v`, `Yee.v`, `Pushers.v` | `PropEsirkepov.v`, `SpecCurrent.v` | induction on the history, with C74 and C83 |
| C90-C94 | `Gather.v` | `PropGather.v`, `SpecGather.v` | each loop nest is a sum over a box weighted with B-splines (`GatherReal.v`); the loop over particles or blocks is a map (`GatherProofs.v`); partition of unity and first moment of the splines (`GatherMore.v`) |
| C95, C96 | `Gather.v` | `PropGather.v`, `SpecGather.v` | the sum of the single precision weights is bounded on [0, 1]; the first weight read is undefined (`GatherFacts.v`) |
| C97 | `Gather.v`, `Deposit.v` | `PropGather.v`, `SpecGather.v` | exchange of the sums over particles and nodes, with C76 and C90 (`GatherMore.v`) |
| C98 | `Gather.v` | `PropGather.v` | induction on the particles, for any arithmetic (`GatherFacts.v`) |
| C99 | `Gather.v` | `PropGather.v`, `SpecGather.v` | splines are translation invariant and vanish outside the tile (`GatherFacts.v`) |
| C100 | `Tiles.v` | `PropTiles.v`, `SpecTiles.v` | floor of the scaled position against the extents of the tiles (`TilesReal.v`, `TilesDomain.v`) |
| C101-C103 | `Tiles.v` | `PropTiles.v`, `SpecTiles.v` | invariant: live prefix of the arrays and capacity (`TilesProofs.v`, `TilesFacts.v`); the sizes computed in binary64 are exact (`TilesIEEE.v`) |
| C104 | `Tiles.v` | `PropTiles.v`, `SpecTiles.v` | induction on the list (`TilesDomain.v`, `TilesBoth.v`) |
| C105 | `Tiles.v` | `PropTiles.v`, `SpecTiles.v` | refinement to an exchange on lists (`TilesExchange.v`), for which the multiset of (particle, final tile) is invariant (`Exchange.v`) |
| C106 | `Tiles.v` | `PropTiles.v`, `SpecTiles.v` | steps on tiles at distance three commute, so every schedule equals a sequential one (`Exchange.v`, `TilesExchange.v`) |
| C107 | `PartBC.v` | `PropPartBC.v`, `SpecPartBC.v` | invariant of the loop over the processes, closed form of the first cell (`PartBCReal.v`) |
| C108 | `PartBC.v` | `PropPartBC.v`, `SpecPartBC.v` | buffers as lists of packed particles (`PartBCProofs.v`, `PartBCTile.v`); messages matched in order, sums over all processes rearranged (`PartBCGlobal.v`) |
| C109 | `Tiles.v`, `PartBC.v` | `PropPartBC.v`, `SpecPartBC.v` | case analysis of the position in each direction, C105/C106 and C108 composed (`PartBCReal.v`) |
| C110 | `PartBC.v` | `PropPartBC.v`, `SpecPartBC.v` | case analysis (`PartBCExamples.v`) |
| C111-C115 | `FieldBC.v`: the arrays of all processes with their derived types, sections as displacements in memory | `PropFieldBC.v`, `SpecFieldBC.v` (nodes of the whole grid) | one axis at a time: which process owns a node (`FieldBCAxis.v`), derived types select sections (`FieldBCMemory.v`), one exchange or summation (`FieldBCWorld.v`, `FieldBCSum.v`); the three axes composed (`FieldBCProofs.v`, `FieldBCReal.v`) |
| C116, C117 | `DepositTiles.v`: arrays of the tiles, the four parallel loops as threads with loads and stores, every distribution and interleaving | `PropDepositTiles.v`, `SpecDepositTiles.v` | an invariant of the threads when no element has two owners (`ThreadLemmas.v`); the four phases visit each node of a tile's array once, the splines do not change when the origin moves by whole cells (`DepositTilesReal.v`); an explicit schedule for the lost update |
| C118, C119 | the models of C116 and C113 together, as in one diagnostic step: `rho = 0`, deposition by every process, summation | `PropWhole.v`, `SpecWhole.v` | the density of a process's particles, seen from the whole grid, is zero outside of its local nodes, so the sum over the copies of a node is the sum over the processes (`WholeProofs.v`) |
| C120, C121 | the current deposition of a process: Esirkepov's routines for each tile, then the four loops that add the tiles to jx, jy, jz; the run: currents set to zero, deposited and summed like the charge density | `PropCurrentTiles.v`, `SpecCurrentTiles.v`, `SpecWholeCurrent.v` | continuity on each tile (C83), added over the tiles with the lemmas of C116, over the processes with those of C113 and C118; particles up to periods by comparing two windows of the periodic grid (`CurrentTilesProofs.v`, `WholeCurrentProofs.v`, `WholeContinuity.v`) |
| C122 | the models of C120 and C121 for two cuts of the same whole grid | `PropCurrentTiles.v`, `SpecFlux.v`, `SpecWholeCurrent.v` | the current of a particle in closed form (`SpecFlux.v`): a field that is zero far away is determined by its differences (`Flux.v`); the closed form moves with the grid, so tiles and processes add up (`CurrentTilesProofs.v`, `WholeCurrentProofs.v`, `WholeContinuity.v`) |
| C123 | `solve_maxwell_fdtd_pxr` of `Yee.v` | `PropLibrary.v`, `SpecLibrary.v` | what each of the six loops computes at every point (sums without the terms that leave the array), then discrete curls at the inner points; the divergences as in C73 and C74 |
| C124 | `pxrpush_em3d_evec_f` of `Yee.v` | `PropLibrary.v` | value at every point; curl of a gradient is zero because differences along two axes commute |
| C125 | the pushes of `Yee.v` on every process, each followed by `field_bc` of `FieldBC.v` (`SpecParallelField.v`) | `PropParallelField.v` | the nodes a process is responsible for are in its fully updated region (`push_bfield_real`, `push_efield_real`); C111 copies them to all guard cells; fields with the periods of the grid stay so; induction on the steps |
| C126 | `pic_step` of `SpecParallelField.v`: C121's deposition and summation followed by C125's step | `PropParallelField.v` | the summed currents are a periodic field on the whole grid that balances the change of the density (C121); divergence of the two pushes on the whole grid; induction on the run |
| C127 | two runs of `pic_run` | `PropParallelField.v` | both follow the same recursion on the whole grid, with the same currents (C122) |
| C128 | `PartDefault.v`: `particle_bcs_tiles_and_mpi_3d` | `PropPartDefault.v`, `SpecPartDefault.v` | the lot of each particle is read off its position; invariants of the loops over tiles, particles and buffers; messages matched to those that send them (`PartDefaultProofs.v`, `PartDefaultRank.v`, `PartDefaultGlobal.v`) |
| C129 | `PartDefault.v` | `PropPartDefault.v`, `SpecPartDefault.v` | the lot of each particle compared with that of C109, then C128 (`PartDefaultReal.v`) |
| C130 | `PartDefault.v`, `PartBC.v` | `PropPartDefault.v` | case analysis, and a particle for which it fails (`PartDefaultExamples.v`) |
| C131 | `PartDefault.v` | `PropPartDefault.v` | runs computed in binary64 |
| C132 | `PushTiles.v` (gathering and push of all tiles of a process), the layouts of C125 | `PropPic.v`, `SpecPic.v` | gathering (C90, C99), pushers (C68, C69) and pushing of positions composed for a tile, then induction on the list of tiles (`PushTilesProofs.v`) |
| C133 | `Loop.v` (a time step of the main loop), all models it composes | `PropLoop.v`, `SpecLoop.v` | the layouts of the particles and of the fields are the same (`LoopBridge.v`); push (C132) and exchange (C108, C128) in real numbers (`LoopParticles.v`); the step refines one on the whole grid with C121 and C126, then induction on the steps (`LoopStep.v`) |
| C134 | same model, two set-ups | `PropLoop.v`, `SpecLoop.v` | by C133 both runs refine the run on the whole grid, which is deterministic up to the order of the particles (`LoopStep.v`) |
| C135 | `Ckc.v`: the four pushes of `karkkainen.F90` with their coefficients | `PropCkc.v`, `SpecCkc.v` | the coefficients are evaluated symbolically, each statement equals the specified difference (`CkcProofs.v`, `Ckc2D.v`); sums of shifted values commute (`CkcWaves.v`) |
| C136 | same formulas, runs on the unbounded grid | `PropCkc.v`, `SpecCkc.v` | the wave operator on a plane wave is a product over the axes; the amplitude has a conserved positive quadratic form (`CkcWaves.v`) |
| C137 | `FD_weights`, `init_stencil_coefficients` (`FdWeights.v`) | `PropFd.v`, `SpecFd.v` | loop invariants over both loops: what c(0:1, j) holds after stage i, as node products and their derivatives; polynomials by case on the degree (`FdProofs.v`) |
| C138 | time step of `initall` (`TimeStep.v`) | `PropTimeStep.v`, `SpecTimeStep.v` | the differences of any order act on a plane wave by a sine series, bounded by the sum of the sizes; the recurrence of the amplitude is bounded or has a root below -1 (`TimeStepProofs.v`, `TimeStepOrders.v`); the fields obey the wave equation because the differences commute (`MaxwellWave.v`) |
| C139 | `FD_weights_hvincenti`, `logfactorial` (`Hvincenti.v`) | `PropHv.v`, `SpecFd.v` | the Lagrange polynomial of a point as a product of the points below and above it; its derivative from that of the symmetric product of all points, by induction on the order; the same numbers from the factorials (`HvProofs.v`); a polynomial is its interpolation plus a multiple of the product of the points, by division (`HvExact.v`) |

## 3. Trusted base

* The kernel of Coq 8.16.1 (with its `vm_compute` machine, used for binary64
  witnesses) and the compiler that built it.
* The axioms of the standard library listed below by `Print Assumptions`, and no
  others: the classical real numbers
  (`ClassicalDedekindReals.sig_forall_dec`, `ClassicalDedekindReals.sig_not_dec`),
  `FunctionalExtensionality.functional_extensionality_dep` and
  `Classical_Prop.classic` (both reach us through `Reals`, Coquelicot and Flocq).
* That the model says what the C++ and Fortran say. Each definition cites the
  lines it transcribes; section 4 lists what is left out.
* In level (F) statements, that the hardware rounds to nearest even as IEEE-754
  prescribes and that the compiler does not contract or reassociate. In level (X)
  statements, nothing about rounding is claimed.

The table is generated by `tools/assumptions.py` from the output of the build.

<!-- assumptions: begin -->
**No axioms (closed under the global context)**

* PropChi: C25_si_chi_ignores_lambda, C25_engines_report_lambda
* PropDecomp: C62_sound, C62_finds_owner, C62_no_owner, C63_search, C63_sound, C64_3d, C64_2d, C64_symmetric, C64_empty_refuted, C65_any_arithmetic, C66_ranks, C66_range, C66_limits, C66_periodic_x, C66_ranks_refuted, C66_periodic_y_refuted, C67_counting_sort
* PropDeposit: C80_optimised_order_1, C80_optimised_order_3
* PropDepositTiles: C117_deterministic
* PropEmission: C59_counts_weights_draws, C59_sampling_zero
* PropEngines: C39_bw_isolated, C39_qs_isolated, C39_sw_isolated, C39_bw_replay, C39_qs_replay, C39_bw_copy, C39_bw_assign, C39_qs_copy, C39_sw_copy, C39_bw_history, C39_qs_history, C39_sw_history, C40_bw_clone, C40_qs_clone, C40_bw_tables, C40_qs_tables
* PropEsirkepov: C87_scratch_order_1, C87_scratch_order_2, C87_scratch_order_3
* PropEvolve: C27_photon_any_arithmetic, C27_lepton_any_arithmetic, C41_photon_missing_table, C41_lepton_missing_table
* PropFieldBC: C111_guard_exchange, C111_one_responsible, C112_copies_agree, C114_guard_numbers_refuted, C114_same_guards
* PropGather: C96_unknown_order_refuted, C98_particles_independent
* PropPairs: C33_counts_weights_draws, C35_search_any_arithmetic, C37_pair_table_any_schedule, C37_photon_table_any_schedule, C38_pair_table_refuted, C38_photon_table_refuted, C38_enough_points
* PropPartBC: C107_split, C107_local_sizes
* PropPushers: C68_independent, C68_block_size, C69_other_values
* PropSpecies: C49_history, C49_add, C49_remove, C49_toend, C49_fields, C50_removes, C51_destroys, C51_unknown, C52_effect, C52_undefined, C53_register, C53_run, C53_all, C53_unknown_refuted, C56_step, C56_counts, C60_any_arithmetic, C61_same_stream
* PropTables: C18_addressing_injective, C18_large_table_refuted, C19_round_trip_1d, C19_round_trip_2d, C20_truncated_1d_refuted, C20_truncated_2d_refuted, C20_unopened_file_refuted, C20_uninitialised_refuted
* PropUtilities: C07_upper_bound_any_range, C07_upper_bound_partitioned, C08_lin_grid_shape, C08_lin_grid_invalid, C09_log_grid_shape, C09_log_grid_invalid
* PropVector: C01_memory_safe, C01_next_operation_safe, C01_view_refuted, C02_value_semantics, C03_storage_accounting, C03_no_leak_without_overwrite, C03_assignment_refuted, C04_self_copy_refuted, C04_self_move_refuted, C05_resize_owning, C05_resize_refused, C05_raw_and_moved_do_not_own, C06_front_and_const_back, C06_back_is_front_refuted
* PropYee: C72_schedule_b, C72_schedule_e, C72_schedule_b_any_order, C72_schedule_e_any_order, C72_schedule_b_2d, C72_schedule_e_2d, C72_schedule_b_any_order_2d, C72_schedule_e_any_order_2d, C72_schedule_cleaning, C72_frame_b, C72_frame_e, C72_guards_b_refuted, C72_guards_e_refuted, C72_guards_2d_refuted, C72_private_index_e_refuted, C72_private_index_b_refuted, C75_order_two

**`ClassicalDedekindReals.sig_forall_dec`, `FunctionalExtensionality.functional_extensionality_dep`**

* PropCkc: C136_wave, C136_along_axis
* PropDeposit: C81_sign, C81_support
* PropEvolve: C30_coefficient_positive
* PropTables: C13_interpolant_unique, C16_exact_at_nodes, C16_between_bounds, C16_exact_for_bilinear_data
* PropTimeStep: C138_wave_equation

**`ClassicalDedekindReals.sig_forall_dec`, `ClassicalDedekindReals.sig_not_dec`, `FunctionalExtensionality.functional_extensionality_dep`**

* PropCkc: C136_stable, C136_unstable, C136_bounded, C136_stable_2d
* PropPushers: C68_scheme_determines, C70_B08_brakes
* PropSchwinger: C46_parallel_fields
* PropSpecies: C54_unique, C54_energy, C54_reverse, C54_reverse_refuted

**`ClassicalDedekindReals.sig_forall_dec`, `ClassicalDedekindReals.sig_not_dec`, `Classical_Prop.classic`, `FunctionalExtensionality.functional_extensionality_dep`**

* PropChi: C21_vector_operations, C21_vector_laws, C21_norm_laws, C22_chi_photon, C22_chi_photon_covariant, C22_nonnegative, C22_zero_momentum, C22_parallel_electric_field, C22_plane_wave, C23_chi_lepton, C23_chi_lepton_covariant, C23_nonnegative, C23_rest_refuted, C24_photon_rotation, C24_lepton_rotation, C24_photon_boost, C24_lepton_boost, C24_rest_frame_refuted, C25_normalised_chi_photon, C25_normalised_chi_lepton, C57_chi_photon_units, C57_chi_lepton_units
* PropCkc: C135_update, C135_divergence, C135_cleaning, C135_longitudinal, C135_update_2d, C135_divergence_2d, C135_cleaning_2d
* PropCurrentTiles: C120_continuity, C120_possible, C121_continuity, C121_deposited, C121_possible, C122_decomposition
* PropDecomp: C65_exact, C65_quality, C65_outside_refuted, C65_last_cell_refuted, C67_exact_3d, C67_exact_2d, C67_binary64_refuted, C67_below_refuted
* PropDeposit: C76_density, C76_density_2d, C77_total_charge, C77_total_charge_2d, C78_in_bounds, C78_out_of_bounds, C78_unknown_order_refuted, C79_centre_of_charge, C80_optimised_order_2, C81_any_order_of_updates, C82_total_charge_2d_refuted
* PropDepositTiles: C116_tiles_invisible, C116_possible, C116_total_charge, C117_threads_refuted, C117_lost
* PropEmission: C43_momentum_conserved, C43_any_table, C44_fractions_and_direction, C44_generated_tables, C45_exact, C45_ieee, C45_one_refuted, C58_energy_created, C59_weights_add_up
* PropEngines: C40_empty_refuted
* PropEsirkepov: C83_continuity, C83_continuity_any_order, C84_total_current, C84_total_current_any_order, C84_total_current_plain, C85_in_bounds, C85_in_bounds_any_order, C85_too_fast_refuted, C86_optimised, C87_order_of_particles, C88_high_order_refuted, C89_residual, C89_gauss_law
* PropEvolve: C26_exponential, C26_increasing, C27_photon_below_threshold, C28_photon_event_time, C28_lepton_event_time, C28_ieee_event_time, C28_ieee_nonnegative_refuted, C29_photon_step_splitting, C29_lepton_step_splitting, C30_zero, C30_rate, C30_inverse_energy, C30_direct_rate, C31_lookup_in_table, C31_binary64_refuted, C42_rate_below_maximum, C42_above_maximum_refuted, C42_binary64_refuted, C42_zero, C42_inverse_energy, C42_direct_rate, C57_pair_rate_units, C57_photon_rate_units
* PropFd: C137_weights, C137_axes, C137_order2, C137_order4, C137_order6_refuted, C137_nodal2_refuted, C137_nodal4_refuted
* PropFieldBC: C113_summation, C113_conserved, C115_blocking_wraps, C115_absorbing_refuted
* PropGather: C90_interpolation, C91_affine_fields_exact, C92_no_overshoot, C93_right_or_out_of_bounds, C93_out_of_bounds, C94_algorithms_agree, C95_uniform_field_refuted, C96_no_magnetic_field_refuted, C97_force_on_charge, C99_tiles_transparent
* PropHv: C139_weights, C139_exact
* PropLibrary: C123_step, C124_update, C124_longitudinal
* PropLoop: C133_run, C133_goes_on, C133_gauss, C134_decomposition, C134_arrays
* PropPairs: C32_pairs_conserve_energy, C33_weights_add_up, C34_symmetry, C35_search_in_bounds, C35_refuted_b32, C36_momenta_numbers_refuted, C36_momenta_numbers
* PropParallelField: C125_run, C125_possible, C125_decomposition, C126_gauss, C126_magnetic, C126_possible, C127_decomposition
* PropPartBC: C107_local_domains, C108_exchange_between_processes, C109_periodic, C109_periodic_openmp, C109_binary64_refuted, C110_absorbing_lower, C110_absorbing_upper, C110_upper_boundary_refuted, C110_reflecting_lower, C110_reflecting_upper, C110_reinjecting_lower
* PropPartDefault: C128_default_exchange, C129_default_periodic, C129_single_tile_refuted, C130_kinds, C130_reflecting_refuted, C130_absorbing, C130_absorbing_refuted, C131_count_refuted, C131_late_counts_refuted
* PropPic: C132_push
* PropPushers: C68_boris_scheme, C68_magnetic_field_does_no_work, C68_electric_field, C68_reversible, C68_split, C69_vay_scheme, C69_fields_cancel, C69_reversible, C69_two_halves, C70_S09, C70_B08, C70_LL, C70_free_flight, C70_B08_at_rest_refuted, C71_slower_than_light, C71_push_2d, C71_energy, C71_energy_nonnegative, C71_magnetic_push_keeps_energy
* PropSchwinger: C46_rate_value, C46_limit, C46_rate_sign, C46_invariants, C46_boost, C46_rotation, C46_binary32_refuted, C46_binary64_refuted, C47_single, C47_position, C48_multiple, C57_schwinger_units, C57_schwinger_units_refuted
* PropSpecies: C52_refuted, C54_midpoint, C55_photons, C55_leptons, C55_zero_momentum_refuted, C60_place
* PropTables: C13_interp_linear, C14_interp_linear_equispaced, C15_last_coordinate_refuted, C15_outside_is_out_of_bounds, C15_equispaced_below_is_out_of_bounds, C16_bilinear, C16_bilinear_equispaced, C17_first_axis_clamped, C17_first_axis, C17_binary64_refuted, C18_addressing
* PropTiles: C100_one_tile_for_each_position, C100_grid_points, C100_initial_tiles, C101_add, C101_remove, C102_mask, C103_group, C103_large_group_refuted, C104_insert, C104_insert_in_place, C105_exchange, C105_exchange_in_place, C106_parallel_exchange, C106_parallel_exchange_in_place
* PropTimeStep: C138_bounded, C138_fields, C138_bounded_2d, C138_grows, C138_default, C138_order4_refuted, C138_karkkainen, C138_spectral, C138_spectral_2d
* PropUtilities: C07_upper_bound_sorted, C08_lin_grid, C09_log_grid, C09_zero_minimum_refuted, C10_log_lin_log_grid, C10_other_sizes_refuted, C11_poisson_quantile, C11_poisson_monotone, C11_large_mean_refuted, C12_poisson_terminates_ieee
* PropWhole: C118_density, C118_decomposition, C118_possible, C119_total_charge
* PropYee: C73_div_b, C73_div_b_2d, C73_div_b_diagnostic, C73_div_b_history, C74_div_e, C74_div_e_2d, C74_div_e_diagnostic, C74_gauss_history, C74_residual_history, C75_update_b, C75_update_e, C75_update_b_2d, C75_update_e_2d, C75_plane_b, C75_plane_e, C75_reversible_b, C75_reversible_e, C75_superposition_b, C75_superposition_e, C75_uniform_b, C75_uniform_e
<!-- assumptions: end -->

## 4. Which parts of the code are modelled

Paths are relative to `src/multi_physics` for the C++ part.

| Source | Modelled | Not modelled |
|--------|----------|--------------|
| `QED/src/picsar_vector.hpp` | all constructors, assignments, `resize`, accesses, iterators `begin/end` as ranges, destructor | allocation failure, device (CUDA) qualifiers |
| `QED/src/picsar_array.hpp` | as the record `vec3` (size 3) and as pairs | other sizes |
| `QED/src/utilities.hpp` | all functions | `bracket_and_solve_root` (Boost) is an oracle |
| `QED/src/vec_functions.hpp`, `chi_functions.hpp`, `qed_commons.h` | everything | compile-time switches other than the unit system |
| `QED/src/lookup_tables.hpp` | both tables, all interpolations, export/import of binary files, construction from raw pointers | the stream class itself; a stream is the list of remaining bytes and a failbit |
| `QED/src/rng_wrapper.hpp` | the interface: a state and a function giving a uniform number and the next state | the Mersenne twister and `std::uniform_real_distribution` |
| `QED/src/quadrature.hpp`, `special_functions.hpp` | as oracles (parameters) | their numerical accuracy |
| `QED/src/breit_wheeler_engine.hpp`, `quantum_sync_engine.hpp` | all functions: optical depths, evolution, rates, generation, table generation (OpenMP loop with arbitrary schedules), innards, serialisation of tables | printed messages; control parameters files |
| `QED/src/schwinger_pair_engine.hpp` | all functions | the two public wrappers that do not compile when instantiated (208-225, 267-283) are recorded as a finding |
| `QED/src/msg.hpp` | no | prints only |
| `test_program/src/*` | species, leptons, photons, electrons, positrons, `test_BW` of main.cpp | output files (`print_on_disk`), the printing of progress, `main` dispatch |
| `test_cpu`, `test_gpu`, `QED_tests` | no | they are tests and use the engines through the interface modelled above |

Fortran kernels (`/repo/src`), modelled on the layer of `Fortran.v` (1-based arrays
with bounds checks, DO loops, FLOOR/CEILING to 32 bit integers):

| Source | Modelled | Not modelled |
|---|---|---|
| `housekeeping/load_balancing.F90` | `compute_currproc_array_dimensions`, `get_proc_interval`, `binary_search`, `get_2Dintersection`, `get_3Dintersection`, `pxr_convertindtoproc` and `get_1Darray_proclimits` without Cartesian communicator, `balance_in_dir` | the MPI remapping of fields and particles, the load estimates and timers |
| `housekeeping/sorting.F90` | `pxr_particle_bin_sorting`, `pxr_particle_bin_sorting_2d` | `particle_sorting_sub` (the loop on tiles and species), DEBUG checks |
| `particle_pushers/boris_pusher/boris_3d.F90`, `boris_2d.F90` | `pxr_boris_push_u_3d`, its block variant, the three radiation-reaction variants, `pxr_epush_v`, `pxr_bpush_v`, `pxr_set_gamma`, `pxr_pushxyz`, `pxr_push2dxz` | SIMD directives |
| `particle_pushers/vay_pusher/vay_3d.F90` | `pxr_ebcancelpush3d` | |
| `particle_pushers/particle_pusher_manager_3d.F90` | `field_gathering_plus_particle_pusher_sub`: the loop on the tiles, one species, pushers 0 to 3 | pusher 4 (Landau-Lifshitz), antennas, frozen species, `field_gathering_plus_particle_pusher_cacheblock_sub`, `particle_pusher_sub`, `pxrpush_particles_part1`, `pxrpush_particles_part2` |
| `submain.F90` | `step`, 3D loop (105-176): gathering and push, particle exchange, currents, fields; `initall`, the time step (583-595); `init_stencil_coefficients` (896-915); `FD_weights` (933-990) | 2D and RZ loops, FFTW, laser particles, sorting within the loop, diagnostics and output, moving window |
| `particle_pushers/kin_energy.F90` | `compute_kin_energy_vector` | the loop over tiles and the MPI reduction |
| `field_solvers/Maxwell/yee_solver/yee.F90` | all 2D and 3D E, B and F push routines, on `Grid.v` (arrays of rank three with bounds; OpenMP loops as arbitrary interleavings) | the cylindrical routines `pxrpush_emrz_evec`, `pxrpush_emrz_evec_multimode`, `pxrpush_emrz_bvec`, `pxrpush_emrz_bvec_multimode` |
| `field_solvers/Maxwell/karkkainen_solver/karkkainen.F90` | all four routines: 2D and 3D magnetic push and divergence cleaning push | - |
| `field_solvers/Maxwell/GPSTD_solver/init_kspace_3D.F90` | `logfactorial` (66-82), `FD_weights_hvincenti` (1515-1537) | everything else: the spectral solver |
| `field_solvers/Maxwell/maxwell_solver_manager.F90` | `push_bfield`, `push_efield`, `push_bfield_2d`, `push_efield_2d` | spectral solver, PML, energy diagnostics, timers |
| `init_external.F90` | the library push `solve_maxwell_fdtd_pxr` | initialisation |
| `diags/diags.F90` | `calc_field_div`, `calc_field_divB` | the other diagnostics |
| `particle_deposition/charge_deposition/charge_deposition_3d.F90`, `charge_deposition_2d.F90` | `depose_rho_scalar_1_1_1`, `_2_2_2`, `_3_3_3`, `pxr_depose_rho_n`, `pxr_depose_rho_n_2dxz` without cylindrical options | the vectorised variants, `pxr_depose_rhoold_n_2dxz`, cylindrical geometry |
| `particle_deposition/current_deposition/esirkepov/esirkepov_3d.F90` | `depose_jxjyjz_esirkepov_1_1_1`, `_2_2_2`, `_3_3_3`, `pxr_depose_jxjyjz_esirkepov_n` | the vectorised variants; the 2D and cylindrical files |
| `field_gathering/energy_conserving/field_gathering_on_3d.F90`, `field_gathering_o1_3d.F90`, `field_gathering_o2_3d.F90`, `field_gathering_o3_3d.F90`, `field_gathering_manager_3d.F90` | `pxrgete3d_n`, `pxrgetb3d_n`, `pxr_gete3d_n`, `pxr_getb3d_n` (energy conserving), the scalar routines of order 1 to 3, `geteb3d_energy_conserving_vecV4_1_1_1`, `vecV4_2_2_2`, `vecV3_3_3_3`, the dispatch `geteb3d_energy_conserving_generic`, the gathering of one tile in `field_gathering_sub` | variants compiled only with DEV; the loop over tiles and species; timers |
| `parallelization/tiling/tiling.F90` | `set_tile_split_for_species`, `add_particle_to_species`, `add_particle_at_tile`, `add_group_of_particles_at_tile`, `rm_particles_from_species_with_mask`, `rm_particle_at_tile`, `allocate_tile_arrays`, `init_tile_arrays_for_species` (particle arrays), `resize_particle_arrays`, `resize_1D_array_real`, `resize_2D_array_real`, `py_add_particles_to_species` | the 2D variants, the arrays of the fields at the particles, guard cells and local field arrays, the loading of the initial particles |
| `boundary_conditions/particle_boundaries.F90` | `particle_bcs_tiles`, `particle_bcs_tiles_openmp`, `particle_bcs_mpi_blocking`, `particle_bcs_tiles_and_mpi_3d` (one species; the tiles of the latter one after the other) | the 2D variants, the non-blocking exchange, the schedules of the parallel loop of `particle_bcs_tiles_and_mpi_3d` |
| `boundary_conditions/field_boundaries.F90` | `field_bc`, `exchange_mpi_3d_grid_array_with_guards` and its non-blocking version, `summation_bcs` and its non-blocking version, in 3D; `charge_bcs` (the current components are treated alike) | the version with persistent requests, 2D, the moving window, the exchange for FFTW groups |
| `particle_deposition/charge_deposition/charge_deposition_manager.F90` | `pxrdepose_rho_on_grid_sub_openmp_3d_n`, `pxrdepose_rho_on_grid_sub_openmp_3d` (with the scalar routines of order 1, 2, 3) | the choice of the routine (`charge_deposition_3d.F90` vectorised versions), 2D, the SCALAR and tiled variants for `rho_old` |
| `particle_deposition/current_deposition/current_deposition_manager_3d.F90` | `depose_jxjyjz` (cases 0 and 1), `pxrdepose_currents_on_grid_jxjyjz_esirkepov_sub_openmp` | the classical deposition and its tile loops, the sequential variants, the choice among them |
| `parallelization/mpi/mpi_derived_types.F90` | `create_3d_array_derived_type` as used for sections; a message longer than the receive buffer ends the program | everything else |
| `parallelization/mpi/mpi_routines.F90` | from `mpi_initialise`: the split without FFTW groups, the boundaries of the particles; from `setup_communicator`: the neighbours of a process; MPI messages between two processes are received in the order in which they were sent | everything else |
| other Fortran files | no | |

Simplifications, also stated at the definitions: heap allocation never fails;
`static_cast` between `_REAL` and itself is the identity; in `RX` there is one zero
and arithmetic is exact; the original of a cloned engine stays alive and its tables
unmodified (views are copied values there, while `PicsarVector.v` models aliasing
itself); loops whose termination is part of a property run with fuel and
`OutOfFuel` is excluded by the theorem.

## 5. Testing the theorems against wrong programs

`seeded/LOG.jsonl` has one line per seeded bug: the definition edited, the edit, the
claim it breaks, the theorems whose proofs no longer go through and the theorems
tightened as a consequence. A theorem counts as failed when `Print Assumptions`
shows that it rests on a lemma whose proof script no longer compiles after the edit.
