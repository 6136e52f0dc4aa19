{"id": "C01", "title": "picsar_vector is memory safe", "statement": "No sequence of constructions (including non-owning ones over buffers of the user), copies, moves, assignments, resizes, in-range element accesses and destructions of picsar_vector objects, each on objects still alive, ever frees a block twice, frees memory it does not own, or touches memory outside a live block. The one exception is a non-owning vector built over the data() of another vector: it dangles once that vector is destroyed or resized.", "quantifier": "every finite program (history) over any number of owning vectors and any sizes", "why_tests_cant": "must hold for every history of operations; a test exercises a handful of histories", "anchors": ["src/multi_physics/QED/src/picsar_vector.hpp: all constructors, operator=, resize, operator[], ~picsar_vector"]}
{"id": "C02", "title": "picsar_vector has value semantics", "statement": "Copying (constructor or assignment from a different object) yields an equal vector that shares no storage: a later write through one object is never visible through any other owning object; moving transfers the content and leaves the source empty. Observable reads of any program agree with those of plain independent lists.", "quantifier": "every program over owning vectors, every element type and content", "why_tests_cant": "must hold for every history of operations; a test exercises a handful of histories", "anchors": ["src/multi_physics/QED/src/picsar_vector.hpp: copy/move constructors, operator=, operator[]"]}
{"id": "C03", "title": "picsar_vector releases what it allocates", "statement": "At any point of a history the number of allocated blocks is the number of vectors holding storage plus the number of assignments made so far onto a vector that was holding storage; hence once every vector is destroyed nothing is leaked if no such assignment took place, and one block is leaked by each of them (finding: assignment drops the storage of its target).", "quantifier": "every program over owning vectors", "why_tests_cant": "must hold for every history of operations; a test exercises a handful of histories", "anchors": ["src/multi_physics/QED/src/picsar_vector.hpp: operator=(const&), operator=(&&), ~picsar_vector"]}
{"id": "C04", "title": "What self-assignment does", "statement": "Copy-assigning a picsar_vector to itself keeps its size but makes every element indeterminate; move-assigning it to itself leaves it empty, non-owning, and releases nothing (finding: self-assignment does not keep the content).", "quantifier": "every vector content", "why_tests_cant": "needs a statement about all contents and about indeterminate memory, which a test run cannot observe", "anchors": ["src/multi_physics/QED/src/picsar_vector.hpp: operator="]}
{"id": "C05", "title": "resize keeps the common prefix", "statement": "After resize(n) an owning vector has size n and its first min(old,n) elements are unchanged; a non-owning (raw or moved-from) vector refuses with an exception and is left unchanged.", "quantifier": "every size pair and content", "why_tests_cant": "all sizes and contents", "anchors": ["src/multi_physics/QED/src/picsar_vector.hpp: resize"]}
{"id": "C06", "title": "front/back return the ends", "statement": "front() (both overloads) and the const back() designate the first and the last element of every non-empty vector; the non-const back() designates the first element (finding).", "quantifier": "every non-empty vector, const and non-const", "why_tests_cant": "all sizes and contents; the non-const overload is picked silently", "anchors": ["src/multi_physics/QED/src/picsar_vector.hpp: front, back"]}
{"id": "C07", "title": "Upper-bound search is correct on any input", "statement": "The search terminates, reads only inside the range, and returns the boundary: everything it compared just below is not greater than the value, the element at the result is greater. On any sorted range the result is the first element greater than the value.", "quantifier": "every range (sorted or not, any comparison, NaN included), every value, every length", "why_tests_cant": "unbounded ranges and arbitrary comparisons", "anchors": ["src/multi_physics/QED/src/utilities.hpp: picsar_upper_bound"]}
{"id": "C08", "title": "Linearly spaced vectors", "statement": "A valid request (min<max, size>=2) returns exactly size points, first min, last max, strictly increasing with constant step; an invalid request returns an empty vector.", "quantifier": "every min,max,size", "why_tests_cant": "all real bounds and all sizes", "anchors": ["src/multi_physics/QED/src/utilities.hpp: generate_lin_spaced_vec"]}
{"id": "C09", "title": "Logarithmically spaced vectors", "statement": "A valid request (0<min<max, size>=2) returns exactly size points, first min, last max, strictly increasing with constant ratio; an invalid request returns an empty vector. (Finding: min=0 is accepted although no such grid exists.)", "quantifier": "every min,max,size", "why_tests_cant": "all real bounds and all sizes", "anchors": ["src/multi_physics/QED/src/utilities.hpp: generate_log_spaced_vec"]}
{"id": "C10", "title": "Log-lin-log grids are sorted grids", "statement": "generate_log_lin_log_spaced_vec returns size strictly increasing points from min to max. (Finding: false when size is not a multiple of 3.)", "quantifier": "every min,max,size", "why_tests_cant": "all sizes; failure depends on size mod 3", "anchors": ["src/multi_physics/QED/src/utilities.hpp: generate_log_lin_log_spaced_vec"]}
{"id": "C11", "title": "Poisson sampler inverts the Poisson CDF", "statement": "poisson_distrib(lambda,u) terminates and returns the least k with u <= sum_{i<=k} e^-lambda lambda^i/i!, so k is Poisson distributed when u is uniform; it is monotone in u.", "quantifier": "every lambda>=0 and every u in [0,1)", "why_tests_cant": "infinite support, unbounded loop", "anchors": ["src/multi_physics/QED/src/utilities.hpp: poisson_distrib"]}
{"id": "C12", "title": "Poisson sampler terminates in floating point", "statement": "poisson_distrib terminates in IEEE arithmetic for every input, NaN and infinities included.", "quantifier": "every pair of doubles and every exp implementation", "why_tests_cant": "2^128 inputs, unbounded loop", "anchors": ["src/multi_physics/QED/src/utilities.hpp: poisson_distrib"]}
{"id": "C13", "title": "1D linear interpolation", "statement": "For a sorted table and where in [front,back) interp_linear stays in bounds and returns the value of the piecewise-linear interpolant (exact at nodes, between the neighbouring values, exact for affine data).", "quantifier": "every table, every abscissa in range", "why_tests_cant": "all tables and abscissae", "anchors": ["src/multi_physics/QED/src/lookup_tables.hpp: lookup_1d::interp_linear"]}
{"id": "C14", "title": "1D equispaced interpolation", "statement": "For an equispaced table and where in [front,back) interp_linear_equispaced stays in bounds and returns the same value as interp_linear.", "quantifier": "every equispaced table, every abscissa in range", "why_tests_cant": "all tables and abscissae", "anchors": ["src/multi_physics/QED/src/lookup_tables.hpp: lookup_1d::interp_linear_equispaced"]}
{"id": "C15", "title": "Interpolation at the end of the table", "statement": "Interpolating at the last coordinate of the table is in bounds. (Finding: false, both 1D interpolators read past the end there.)", "quantifier": "every table", "why_tests_cant": "needs a memory-safety statement for every table", "anchors": ["src/multi_physics/QED/src/lookup_tables.hpp: lookup_1d::interp_linear, interp_linear_equispaced"]}
{"id": "C16", "title": "2D bilinear interpolation", "statement": "For a sorted 2D table and a point in range, interp_linear (and the equispaced variant) stays in bounds and returns the bilinear interpolant: exact at nodes, between min and max of the 4 corners, exact for bilinear data.", "quantifier": "every table and point in range", "why_tests_cant": "all tables and points", "anchors": ["src/multi_physics/QED/src/lookup_tables.hpp: lookup_2d::interp_linear, interp_linear_equispaced"]}
{"id": "C17", "title": "First-coordinate interpolation with clamping", "statement": "interp_linear_first_equispaced(where,j) is in bounds for every finite where, equals column j of the first/last row outside the range and the linear interpolant along the first axis inside. (Finding: in IEEE arithmetic a point below the last coordinate can still index past the last row.)", "quantifier": "every table, every where, every column j", "why_tests_cant": "all tables and points; the floating-point failure needs a rare rounding", "anchors": ["src/multi_physics/QED/src/lookup_tables.hpp: lookup_2d::interp_linear_first_equispaced, interp_linear_first"]}
{"id": "C18", "title": "2D data addressing", "statement": "data_at_coords(i,j) addresses the entry of row i column j: distinct coordinates address distinct entries, in bounds, for tables below 2^31 entries. (Finding: false for larger tables, the index is truncated to int.)", "quantifier": "every table shape, every coordinate pair", "why_tests_cant": "all shapes incl. more than 2^31 entries", "anchors": ["src/multi_physics/QED/src/lookup_tables.hpp: row_major, data_at_coords", "src/multi_physics/QED/src/picsar_vector.hpp: operator[](int)"]}
{"id": "C19", "title": "Table files round trip", "statement": "Writing a table to a binary stream and reading it back restores the same table, consuming exactly the bytes written, so consecutive tables in one file are restored too.", "quantifier": "every initialised table (any sizes, any bit patterns), any following bytes", "why_tests_cant": "all contents and sizes", "anchors": ["src/multi_physics/QED/src/lookup_tables.hpp: read_from_stream_bin, write_on_stream_bin"]}
{"id": "C20", "title": "Damaged table files are noticed", "statement": "Reading a truncated file does not produce a table that claims to be initialised. (Finding: false.)", "quantifier": "every stream", "why_tests_cant": "every truncation point", "anchors": ["src/multi_physics/QED/src/lookup_tables.hpp: read_from_stream_bin"]}
{"id": "C21", "title": "3-vector algebra", "statement": "dot, cross, norm and the operators satisfy the laws of Euclidean 3-vectors (cross product orthogonal to its factors, Lagrange identity, norm^2 = dot with itself, linearity).", "quantifier": "every triple of vectors", "why_tests_cant": "all vectors", "anchors": ["src/multi_physics/QED/src/vec_functions.hpp"]}
{"id": "C22", "title": "Photon chi is the invariant chi", "statement": "chi_photon equals |p|/(m c E_s lambda) sqrt(|E + c n x B|^2 - (n.E)^2): non-negative, zero for zero momentum and for a field parallel to a photon in a pure electric field.", "quantifier": "every momentum and field", "why_tests_cant": "all momenta and fields", "anchors": ["src/multi_physics/QED/src/chi_functions.hpp: chi_photon"]}
{"id": "C23", "title": "Lepton chi is the invariant chi", "statement": "chi_lepton equals gamma/(E_s lambda) sqrt(|E + v x B|^2 - (beta.E)^2) for every non-zero momentum; it is non-negative. (Finding: for zero momentum it returns 0 instead of |E|/(E_s lambda).)", "quantifier": "every momentum and field", "why_tests_cant": "all momenta and fields", "anchors": ["src/multi_physics/QED/src/chi_functions.hpp: chi_lepton"]}
{"id": "C24", "title": "chi is frame independent", "statement": "chi of photons and of leptons is unchanged by rotations of momentum and fields and by Lorentz boosts along an axis.", "quantifier": "every momentum, field, rotation angle, boost velocity", "why_tests_cant": "all frames", "anchors": ["src/multi_physics/QED/src/chi_functions.hpp"]}
{"id": "C25", "title": "Units convention of lambda", "statement": "With SI units lambda never influences chi; with normalised units chi is inversely proportional to lambda; SI engines always report lambda=1, whatever the history of set_lambda calls.", "quantifier": "every input, every history of lambda changes", "why_tests_cant": "all values and histories", "anchors": ["src/multi_physics/QED/src/chi_functions.hpp", "src/multi_physics/QED/src/breit_wheeler_engine.hpp: set_lambda,get_lambda", "src/multi_physics/QED/src/quantum_sync_engine.hpp: set_lambda"]}
{"id": "C26", "title": "Optical depths are exponential", "statement": "The optical depth obtained from a uniform u in [0,1) is a finite non-negative number t with P-value u: 1-exp(-t)=u; strictly increasing in u.", "quantifier": "every u in [0,1)", "why_tests_cant": "all u", "anchors": ["src/multi_physics/QED/src/breit_wheeler_engine.hpp: internal_get_optical_depth", "src/multi_physics/QED/src/quantum_sync_engine.hpp"]}
{"id": "C27", "title": "Photons below threshold are untouched", "statement": "Evolving the optical depth of a photon with energy below 2mc^2 or chi below the cutoff changes nothing and produces no event.", "quantifier": "every photon, field, dt", "why_tests_cant": "all inputs", "anchors": ["src/multi_physics/QED/src/breit_wheeler_engine.hpp: internal_evolve_opt_depth_and_determine_event"]}
{"id": "C28", "title": "Event time lies inside the step", "statement": "If evolution reports an event the reported time is in [0,dt]; if it does not, time 0 is reported and the optical depth is still non-negative. In IEEE arithmetic event_dt<=dt still holds. (Finding: in IEEE arithmetic event_dt can be slightly negative.)", "quantifier": "every depth>=0, rate, dt", "why_tests_cant": "all inputs, incl. roundings", "anchors": ["src/multi_physics/QED/src/breit_wheeler_engine.hpp: internal_evolve_opt_depth_and_determine_event", "src/multi_physics/QED/src/quantum_sync_engine.hpp: internal_evolve_opt_depth_and_determine_event"]}
{"id": "C29", "title": "Event time is independent of step splitting", "statement": "Evolving through any sequence of steps produces the event at the same physical time as one step of the total duration (constant fields), and an event occurs iff the total duration times the rate exceeds the initial depth.", "quantifier": "every history of steps, every initial depth", "why_tests_cant": "all histories of steps", "anchors": ["src/multi_physics/QED/src/breit_wheeler_engine.hpp: internal_evolve_opt_depth_and_determine_event", "src/multi_physics/QED/src/quantum_sync_engine.hpp"]}
{"id": "C30", "title": "Breit-Wheeler rate", "statement": "The interpolated pair-production rate is non-negative and finite, zero iff photon energy or chi is zero, inversely proportional to the photon energy at fixed chi.", "quantifier": "every energy, chi and lambda, every parameter choice of the table and every positive function T tabulated", "why_tests_cant": "all inputs and tables", "anchors": ["src/multi_physics/QED/src/breit_wheeler_engine.hpp: internal_interp_dN_dt, compute_dN_dt"]}
{"id": "C31", "title": "Breit-Wheeler rate lookup stays in the table", "statement": "With a table produced by compute_dN_dt_lookup_table the rate lookup never reads outside the table, for every chi: outside the tabulated interval asymptotic formulas are used. (Finding: true in exact arithmetic; in binary64 the largest chi below the table maximum can read past the end.)", "quantifier": "every chi, every table parameters", "why_tests_cant": "all chi and table sizes", "anchors": ["src/multi_physics/QED/src/breit_wheeler_engine.hpp: internal_interp_dN_dt, compute_dN_dt_lookup_table"]}
{"id": "C32", "title": "Pairs conserve energy", "statement": "For a table produced by compute_cumulative_pair_table, every generated electron/positron pair satisfies gamma_e + gamma_p = gamma_photon, both momenta are along the photon momentum, and the energy share of the lighter one is the inverse of the tabulated cumulative probability at the drawn random number (linear between fractions, log-log linear in chi). Exact arithmetic, chi not on an interior node of the table (see C36).", "quantifier": "every photon momentum with gamma>=2 and chi>0 off the interior nodes, every field, generator state, sampling and table", "why_tests_cant": "all inputs and tables", "anchors": ["src/multi_physics/QED/src/breit_wheeler_engine.hpp: internal_generate_breit_wheeler_pairs"]}
{"id": "C33", "title": "Pair weights", "statement": "Exactly `sampling` electrons and `sampling` positrons are produced, each of weight w/sampling, consuming exactly `sampling` random numbers; weights add up to the photon weight.", "quantifier": "every weight and sampling", "why_tests_cant": "all samplings", "anchors": ["src/multi_physics/QED/src/breit_wheeler_engine.hpp: internal_generate_breit_wheeler_pairs, generate_breit_wheeler_pairs"]}
{"id": "C34", "title": "Electron/positron symmetry", "statement": "Drawing u and u+1/2 yields the same pair with the two particles exchanged; the particle with the smaller share has a fraction of chi in [0,1/2].", "quantifier": "every u in [0,1/2), photon, field, table", "why_tests_cant": "all inputs", "anchors": ["src/multi_physics/QED/src/breit_wheeler_engine.hpp: internal_generate_breit_wheeler_pairs"]}
{"id": "C35", "title": "Pair energy search stays in the table", "statement": "With a table produced by compute_cumulative_pair_table, generating pairs never reads out of bounds in exact arithmetic, for every chi, momentum, random number and quadrature result. (Finding: in binary32 the last column, interpolated, can round below 1/2 and the fraction after the last one is read.)", "quantifier": "every chi, every random number, every table produced by compute_cumulative_pair_table", "why_tests_cant": "all inputs and tables", "anchors": ["src/multi_physics/QED/src/breit_wheeler_engine.hpp: internal_generate_breit_wheeler_pairs, compute_cumulative_pair_table"]}
{"id": "C36", "title": "Pair momenta are numbers", "statement": "For a table produced by compute_cumulative_pair_table the generated momenta are finite for every chi that is not an interior node of the table; on an interior node every random number below the first interior probability gives NaN momenta (0*(-inf)).", "quantifier": "every chi, photon, field, table, random number", "why_tests_cant": "needs the exact node values", "anchors": ["src/multi_physics/QED/src/breit_wheeler_engine.hpp: compute_cumulative_pair_table", "src/multi_physics/QED/src/lookup_tables.hpp: interp_linear_first_equispaced"]}
{"id": "C37", "title": "Parallel table generation is deterministic", "statement": "The OpenMP loops that fill the cumulative tables produce the same table for every assignment of iterations to threads and every interleaving, and every entry is written exactly as in the sequential loop.", "quantifier": "every schedule/interleaving, every number of threads, every table size", "why_tests_cant": "schedules are not under a test's control", "anchors": ["src/multi_physics/QED/src/breit_wheeler_engine.hpp: compute_cumulative_pair_table", "src/multi_physics/QED/src/quantum_sync_engine.hpp: compute_cumulative_phot_em_table"]}
{"id": "C38", "title": "Table generation with fewer than two fractions", "statement": "Generating a cumulative table with at least two fractions stays in bounds. (Finding: with fewer than two, the pair table writes out of bounds, and the photon table is returned as initialised but every photon generation from it reads out of bounds.)", "quantifier": "every control structure", "why_tests_cant": "memory safety for all parameters", "anchors": ["src/multi_physics/QED/src/breit_wheeler_engine.hpp: compute_cumulative_pair_table"]}
{"id": "C39", "title": "Engines replay from seed and history", "statement": "Engines (Breit-Wheeler, quantum synchrotron, Schwinger) built with the same seed, wavelength and parameters return the same results for the same sequence of calls, in whatever programs and however these calls are interleaved with calls on other engines; a copy made at any moment, and a Breit-Wheeler engine assigned from another, continues exactly like the original. A history leaves behind exactly: the last wavelength set (none in S.I. units), the parameters unchanged, the generator advanced by one exponential draw per optical depth and one uniform draw per generated pair or photon (three per Schwinger position), and the tables last made or read.", "quantifier": "every history of calls, copies and assignments on every set of engines", "why_tests_cant": "all histories", "anchors": ["src/multi_physics/QED/src/rng_wrapper.hpp", "src/multi_physics/QED/src/breit_wheeler_engine.hpp: copy constructor, operator=", "src/multi_physics/QED/src/quantum_sync_engine.hpp"]}
{"id": "C40", "title": "Exported innards clone the engine", "statement": "An engine rebuilt from the exported innards of an engine whose two tables are initialised (as after computing or reading them) is in the same state as the original, hence answers every later sequence of calls identically. Finding: without tables the clone claims initialised ones, and a call the original answers by direct computation is undefined behaviour on the clone.", "quantifier": "every engine state, every call", "why_tests_cant": "all states", "anchors": ["src/multi_physics/QED/src/breit_wheeler_engine.hpp: export_innards", "src/multi_physics/QED/src/quantum_sync_engine.hpp: export_innards"]}
{"id": "C41", "title": "Missing tables are detected", "statement": "With an uninitialised rate table evolution still works by computing the rate directly; the lookup-free and the table path agree in their decisions for equal rates.", "quantifier": "every input", "why_tests_cant": "all inputs", "anchors": ["src/multi_physics/QED/src/breit_wheeler_engine.hpp: evolve_opt_depth_and_determine_event", "src/multi_physics/QED/src/quantum_sync_engine.hpp: evolve_opt_depth_and_determine_event"]}
{"id": "C42", "title": "Photon emission rate lookup stays in the table", "statement": "The photon emission rate lookup is in bounds for every chi. (Finding: true for chi below the table maximum; at and above the maximum it reads past the end.)", "quantifier": "every chi, every table", "why_tests_cant": "memory safety for all chi", "anchors": ["src/multi_physics/QED/src/quantum_sync_engine.hpp: internal_interp_dN_dt"]}
{"id": "C43", "title": "Photon emission conserves momentum", "statement": "The lepton momentum after emission plus the weighted photon momenta equals the lepton momentum before emission; photons are parallel to the lepton.", "quantifier": "every lepton momentum, weight, sampling, random numbers, table", "why_tests_cant": "all inputs and tables", "anchors": ["src/multi_physics/QED/src/quantum_sync_engine.hpp: internal_generate_photons_and_update_momentum"]}
{"id": "C44", "title": "Emitting leptons never turn around", "statement": "Every emitted photon is parallel to the lepton and carries a fraction f with 0 < f <= 1 of its kinetic energy, f being read off the table at the drawn number; the lepton keeps its direction and a non-zero momentum. The tables the engine generates have the entries this needs.", "quantifier": "every input with table values in [0,1]", "why_tests_cant": "all inputs", "anchors": ["src/multi_physics/QED/src/quantum_sync_engine.hpp: internal_generate_photons_and_update_momentum"]}
{"id": "C45", "title": "Emission probability index is in bounds", "statement": "The column index computed from the random number is in bounds, and so is its right neighbour, for every random number in [0,1), in exact arithmetic and in IEEE arithmetic of every format for tables of up to 2^prec intervals. (Finding: at 1, which some float distributions return, the table is read behind its end.)", "quantifier": "every double in [0,1), every table width up to 2^31", "why_tests_cant": "2^62 doubles; a rounding to 1 would overflow the table", "anchors": ["src/multi_physics/QED/src/quantum_sync_engine.hpp: internal_generate_photons_and_update_momentum"]}
{"id": "C46", "title": "Schwinger rate", "statement": "In exact arithmetic the rate is the physical one: coefficient * a b coth(pi b/a) exp(-pi/a) for the fields a, b of the frame in which they are parallel. It is finite and never negative, zero exactly when E.B = 0 and |E| <= c|B| (so for pure magnetic and null fields), depends on the fields only through the two Lorentz invariants and hence does not change under boosts and rotations. (Finding: in floating point weak magnetic fields give NaN: |B| = 1 in single precision with normalised units, 1e-75 T in double precision.)", "quantifier": "every field", "why_tests_cant": "all fields", "anchors": ["src/multi_physics/QED/src/schwinger_pair_engine.hpp: compute_schwinger_pair_production_rate, internal_compute_schwinger_pair_production_rate"]}
{"id": "C47", "title": "Single pair generation", "statement": "A pair is generated iff the random number is below rate*volume*dt, with weight 1/volume; nothing is generated when the expected number is zero. A position for the pair consists of three fresh uniform numbers in [0,1), i.e. lies inside the cell, and drawing it changes nothing but the random state.", "quantifier": "every field, cell, dt, random number", "why_tests_cant": "all inputs", "anchors": ["src/multi_physics/QED/src/schwinger_pair_engine.hpp: internal_generate_pairs_single"]}
{"id": "C48", "title": "Multiple pair generation", "statement": "The number of generated pairs is the Poisson quantile of rate*volume*dt at the random number: the smallest k with cdf(k) >= u; the search ends; all pairs carry the weight 1/volume.", "quantifier": "every field, cell, dt, random number", "why_tests_cant": "all inputs, unbounded number of pairs", "anchors": ["src/multi_physics/QED/src/schwinger_pair_engine.hpp: internal_generate_pairs_multiple"]}
{"id": "C49", "title": "Species arrays stay consistent", "statement": "After any history of additions, removals, swaps, pushes, registrations and runs (with exceptions caught by the caller) on a freshly constructed species whose user functions keep the array lengths, all attribute arrays hold one and the same particle list, and get_num_particles returns its length. add_particle appends the particle with zero fields, optical depth and flag; remove_particle and remove_particles_from_toend drop exactly the particle, or the tail, at a valid index (an invalid index is undefined behaviour); calc_fields sets exactly the fields.", "quantifier": "every history of operations", "why_tests_cant": "must hold for every history of operations; a test exercises a handful of histories", "anchors": ["src/multi_physics/test_program/src/species.cpp: add_particle, remove_particle, remove_particles_given_sorted_indices, do_process_with_destruction"]}
{"id": "C50", "title": "Removing particles removes exactly the requested ones", "statement": "remove_particles_given_sorted_indices, on strictly increasing valid indices, removes exactly the particles with these indices: the rest is a permutation of the other particles with all attributes, and a survivor whose index is below the new length keeps its place.", "quantifier": "every particle list, every sorted index list", "why_tests_cant": "all lists", "anchors": ["src/multi_physics/test_program/src/species.cpp: remove_particles_given_sorted_indices"]}
{"id": "C51", "title": "Destruction processes remove exactly the flagged particles", "statement": "A process registered with add_process_with_destruction is, after any further history, run by do_process_with_destruction once on every particle in order, and exactly the particles for which it returned true are removed (the others permuted at most); if a call raises, no particle is removed. An ID that was never registered does nothing on an empty species. (Finding: with particles it raises and the ID is lost: it can neither be registered nor run later.)", "quantifier": "every particle list and process", "why_tests_cant": "all lists and processes", "anchors": ["src/multi_physics/test_program/src/species.cpp: do_process_with_destruction"]}
{"id": "C52", "title": "Swapping exchanges two particles", "statement": "swap_particles(i,j) does not exchange two particles. For i,j < 3 it exchanges the coordinates i and j of every particle's position and momentum, leaves the fields alone, and exchanges only optical depth and flag of particles i and j; for an index >= 3 or without such a particle it is undefined behaviour. (The expected property, that all attributes of the two particles are exchanged, is refuted.)", "quantifier": "every pair of indices", "why_tests_cant": "all indices", "anchors": ["src/multi_physics/test_program/src/species.cpp: swap_particles"]}
{"id": "C53", "title": "Process registry", "statement": "After any history of a fresh species an ID can be registered exactly if it was neither registered nor run before (otherwise the registration raises and changes nothing); do_simple_process runs the first function registered under the ID on the arrays; do_all_simple_processes runs all of them once in increasing ID order, stopping at the first exception. (Finding: running an unknown ID raises and leaves the particles alone, but from then on the ID can not be registered, and do_all_simple_processes fails forever.)", "quantifier": "every history of operations, every ID and process", "why_tests_cant": "must hold for every history of operations; a test exercises a handful of histories", "anchors": ["src/multi_physics/test_program/src/species.cpp: add_simple_process, do_all_simple_processes, do_simple_process"]}
{"id": "C54", "title": "Boris pusher", "statement": "In real arithmetic push_momenta with the default pusher replaces every momentum p by the unique p' with p'-p = 2 beta E + (p'+p) x (beta B / gamma(p)), beta = q dt/(2m), and changes nothing else. The gain of gamma^2 is 2 beta E.(p'+p), so without electric field |p| is conserved and the step with -dt restores p. (Finding: with an electric field the step is not reversible, because gamma is that of the old momentum.)", "quantifier": "every momentum, field and dt", "why_tests_cant": "all inputs", "anchors": ["src/multi_physics/test_program/src/leptons.cpp: do_boris_pusher"]}
{"id": "C55", "title": "Free motion", "statement": "In real arithmetic push_positions displaces every photon by dt along the direction of its momentum (a distance |dt|) and every lepton by dt p / gamma, a distance less than |dt|; nothing else changes. (Finding: a photon with zero momentum gets an undefined, NaN, position.)", "quantifier": "every momentum and dt", "why_tests_cant": "all inputs", "anchors": ["src/multi_physics/test_program/src/photons.cpp: push_positions", "src/multi_physics/test_program/src/leptons.cpp: push_positions"]}
{"id": "C56", "title": "Pair creation loop conserves lepton number", "statement": "In the test program, after any number of steps that do not fail, #electrons = #positrons and #photons + #electrons equals the initial number of photons, for every random stream, table and field. One step moves every lepton and photon with the fields at its old position, removes exactly the photons for which the engine found an event, and appends for each of them one electron and one positron at its place.", "quantifier": "every number of steps, every random stream, every initial photon list", "why_tests_cant": "all histories and random streams", "anchors": ["src/multi_physics/test_program/src/main.cpp"]}
{"id": "C57", "title": "The two unit systems", "statement": "For the same physical momentum and fields the S.I. build and the build with normalised units compute the same chi and the same photon-emission and pair-production rates (after conversion of time). (Finding: they do not compute the same Schwinger rate: the normalised build computes the SI rate of fields lambda times as strong, too small for every electric field when lambda < 1 m.)", "quantifier": "every momentum, field and reference wavelength", "why_tests_cant": "Unit tests compare a handful of numbers in one build; the two builds are never run on the same physical situation, and the agreement must hold for every momentum, field and wavelength.", "anchors": ["src/multi_physics/QED/src/qed_commons.h: __schwinger, __pair_prod_coeff, __quantum_synchrotron_rate_coeff, __schwinger_coeff", "src/multi_physics/QED/src/chi_functions.hpp: chi_photon, chi_lepton"]}
{"id": "C58", "title": "Energy balance of photon emission", "statement": "Emission conserves momentum and therefore not energy: the energy of the lepton and the photons after an emission always exceeds the energy of the lepton before it, by less than one electron rest energy. (Finding: energy is created by every emission.)", "quantifier": "every lepton momentum, field, sampling, random numbers, table", "why_tests_cant": "an inequality over a continuum of momenta, fractions and table contents", "anchors": ["src/multi_physics/QED/src/quantum_sync_engine.hpp: internal_generate_photons_and_update_momentum"]}
{"id": "C59", "title": "Photon counts, weights and draws", "statement": "Exactly the requested number of photons is generated, each with weight/sampling, so that the weights add up to the weight of the lepton; one uniform number is drawn per photon and nothing else of the engine changes; with sampling 0 nothing happens.", "quantifier": "every engine state, lepton, field, weight, sampling, in every arithmetic", "why_tests_cant": "for all samplings, engines and arithmetics", "anchors": ["src/multi_physics/QED/src/quantum_sync_engine.hpp: generate_photons_and_update_momentum, internal_generate_photons_and_update_momentum"]}
{"id": "C60", "title": "Where the pairs of the test program appear", "statement": "The electron and positron of a photon that decays in a step appear on the photon's line of flight at the distance dt + dt_prod from its position before the step, dt_prod being the event time returned by the engine. (Finding: not at the distance dt_prod; the photon is moved by the whole step first.)", "quantifier": "every photon list, field, random stream and time step", "why_tests_cant": "all states and random streams; the test program only prints the result", "anchors": ["src/multi_physics/test_program/src/main.cpp: test_BW, BW_opticaldepth, BW_pair_prod"]}
{"id": "C61", "title": "Random streams of the test program", "statement": "The engine that generates the pairs starts from the very generator state from which the initial optical depths were drawn, so the k-th initial optical depth is a function of the k-th state of the stream used for the pairs. (Finding: the streams are not independent, because the engine is cloned before the depths are drawn.)", "quantifier": "every engine, generator, seed and number of photons", "why_tests_cant": "a relation between two streams for all generators and seeds", "anchors": ["src/multi_physics/test_program/src/main.cpp: test_BW", "src/multi_physics/QED/src/breit_wheeler_engine.hpp: export_innards"]}
{"id": "C62", "title": "Owner of a cell in one direction", "statement": "Looking up a cell in the intervals of the processes of one direction always terminates inside the arrays and returns -1 or a process whose interval contains the cell; if the intervals follow each other without overlap it returns the owner whenever there is one, and it returns -1 when nobody owns the cell.", "quantifier": "every number of processes, every pair of interval arrays and every cell", "why_tests_cant": "all sizes and all arrays; the search path depends on all of them", "anchors": ["src/housekeeping/load_balancing.F90: get_proc_interval"]}
{"id": "C63", "title": "Search of a rank in a sorted list", "statement": "The search of a rank in a sorted array of any length terminates inside the array, returns the position of an element equal to the rank if there is one and -1 otherwise; even if the array is not sorted, a result other than -1 is the position of an element equal to the rank.", "quantifier": "every array and every rank", "why_tests_cant": "all lengths and contents", "anchors": ["src/housekeeping/load_balancing.F90: binary_search"]}
{"id": "C64", "title": "Intersection of the boxes of two processes", "statement": "For two non-empty boxes of nodes the intersection routine says that they meet exactly when they share a node, and then returns exactly the box of the shared nodes; exchanging the two boxes changes nothing, so the sender and the receiver of a redistribution agree on the message. (Finding: with an empty second box it can report an intersection.)", "quantifier": "every pair of boxes, in 2D and 3D", "why_tests_cant": "all integer boxes", "anchors": ["src/housekeeping/load_balancing.F90: get_3Dintersection, get_2Dintersection"]}
{"id": "C65", "title": "Load balancing of one direction", "statement": "Balancing a direction always terminates; whatever the arithmetic, the intervals of the processes are non-empty, start at cell 0, follow each other without gap or overlap, and cover the grid except possibly its last cell. In exact arithmetic with non-negative loads and a positive load in the last cell, every process ends at the first cell at which the load so far reaches its share, the whole grid is covered, and if no cell is heavier than the mean load of a process, the grid is partitioned exactly and the load of every process is within one cell of the mean. (Findings: a heavy last cell sends a process outside the grid; a last load lost by rounding leaves the last cell without owner, because the final check compares with ncell-1.)", "quantifier": "every load array, number of cells and number of processes", "why_tests_cant": "all loads, sizes and roundings", "anchors": ["src/housekeeping/load_balancing.F90: balance_in_dir"]}
{"id": "C66", "title": "Ranks and limits of the process grid", "statement": "Without a Cartesian communicator and with at most as many processes in y and z as in x, different processes of the grid have different ranks, the ranks are 0..np-1, the neighbours in x are periodic, and the limits recorded for every rank are those of its column in each direction. (Findings: the y and z indices are compared with the number of processes in x, so that with more processes in y than in x two processes share a rank, and with fewer the y direction is not periodic.)", "quantifier": "every process grid and every array of limits", "why_tests_cant": "all grid sizes", "anchors": ["src/housekeeping/load_balancing.F90: pxr_convertindtoproc, get_1Darray_proclimits"]}
{"id": "C67", "title": "Sorting the particles of a tile", "statement": "Sorting the particles of a tile applies one and the same permutation to every attribute array: no particle is lost, duplicated or mixed with another, the particles end up ordered by bin (z, then y, then x cell), and particles of the same bin keep their order. It holds for all particles inside the given corners in exact arithmetic. (Findings: in binary64 a particle just below the upper corner can be put into a bin past the last one, and a particle below the lower corner, which a positive sorting shift produces, is written outside the arrays.)", "quantifier": "every number of particles, positions, attribute values and bin sizes", "why_tests_cant": "all particle sets; a lost or mixed attribute shows only for particular orders", "anchors": ["src/housekeeping/sorting.F90: pxr_particle_bin_sorting, pxr_particle_bin_sorting_2d"]}
{"id": "C68", "title": "The Boris pusher", "statement": "Pushing an array of particles treats every particle independently of the others, of the number of particles and of the block size. In exact arithmetic the pushed momentum is the one and only solution of the Boris equations: half an electric kick, a rotation about B with the Lorentz factor after the half kick, half an electric kick; the stored inverse Lorentz factor is that of the new momentum. A magnetic field alone does not change the modulus of the momentum, an electric field alone adds q E dt/m, pushing forward and backward returns to the start, and the split routines (electric push, gamma, magnetic push, electric push, gamma) compose to the full push.", "quantifier": "every number of particles, momenta, fields, charge, non-zero mass and time step; independence for any arithmetic", "why_tests_cant": "all momenta, fields, array lengths and block sizes", "anchors": ["src/particle_pushers/boris_pusher/boris_3d.F90: pxr_boris_push_u_3d, pxr_boris_push_u_3d_block, pxr_epush_v, pxr_bpush_v, pxr_set_gamma"]}
{"id": "C69", "title": "The Vay pusher", "statement": "The full push returns, for every particle, the one and only momentum and inverse Lorentz factor which solve the implicit velocity-averaged equation of motion consistently. In crossed fields whose forces cancel on the particle (E + v x B = 0) the momentum is left exactly unchanged; pushing forward and backward returns to the start; the first-half and the second-half push compose to the full push, and any other selector leaves the particles alone.", "quantifier": "every number of particles, momenta, fields, charge, non-zero mass and time step", "why_tests_cant": "all momenta and fields; existence and uniqueness of an implicit solution", "anchors": ["src/particle_pushers/vay_pusher/vay_3d.F90: pxr_ebcancelpush3d"]}
{"id": "C70", "title": "Pushers with radiation reaction", "statement": "The three radiation-reaction pushers return the Boris momentum corrected by the published term (Sokolov 2009, Bulanov 2008, Landau-Lifshitz reduced) evaluated with the mean momentum of the step, with the matching inverse Lorentz factor. Without fields the momentum does not change. The friction coefficient of the Bulanov pusher is never negative. (Finding: in the Bulanov pusher a particle whose mean momentum over the step is zero, for example one at rest in a magnetic field, becomes NaN in all components.)", "quantifier": "every momentum, fields, charge, mass and time step for which the divisors are non-zero", "why_tests_cant": "all momenta and fields", "anchors": ["src/particle_pushers/boris_pusher/boris_3d.F90: pxr_boris_push_rr_S09_u_3d, pxr_boris_push_rr_B08_u_3d, pxr_boris_push_rr_LL_u_3d"]}
{"id": "C71", "title": "Position push and kinetic energy", "statement": "With the inverse Lorentz factor of its momentum a particle moves by less than the distance of light in a step, along its velocity; the 2D push leaves y alone. The kinetic energy of an array is the sum of (gamma-1) m c^2 weight, is not negative when the inverse Lorentz factors lie in (0,1], and is the same before and after a push in a magnetic field alone.", "quantifier": "every number of particles, momenta and time step", "why_tests_cant": "all particle sets", "anchors": ["src/particle_pushers/boris_pusher/boris_3d.F90: pxr_pushxyz", "src/particle_pushers/boris_pusher/boris_2d.F90: pxr_push2dxz", "src/particle_pushers/kin_energy.F90: compute_kin_energy_vector"]}
{"id": "C72", "title": "Field solver loops: schedules, bounds and frame", "statement": "Every finite difference field push (orders two and any order, 2D and 3D, E, B and divergence cleaning) gives the same arrays, in any arithmetic, for every OpenMP distribution of the cells to threads and every interleaving. With enough guard cells no access leaves an array; a push changes only the updated component arrays inside the updated region. (Findings: order two needs one guard cell more than the number of updated guard cells and runs out of bounds otherwise, although the solver of any order cuts its sums there; the 2D solver of any order does not cut them; it also uses a plane index that is private and never set inside its parallel region, so any value outside the array is an out-of-bounds access.)", "quantifier": "every grid size, guard size, order, coefficient list, field content, number of threads and schedule", "why_tests_cant": "schedules are unbounded in number and out-of-bounds reads are often silent", "anchors": ["src/field_solvers/Maxwell/yee_solver/yee.F90: pxrpush_em3d_evec, pxrpush_em3d_bvec, pxrpush_em3d_evec_norder, pxrpush_em3d_bvec_norder, pxrpush_em2d_evec, pxrpush_em2d_bvec, pxrpush_em2d_evec_norder, pxrpush_em2d_bvec_norder, pxrpush_em3d_evec_f", "src/field_solvers/Maxwell/maxwell_solver_manager.F90: push_bfield, push_efield"]}
{"id": "C73", "title": "The divergence of the magnetic field never changes", "statement": "A magnetic push leaves the discrete divergence of B exactly as it was in every cell whose stencil lies in the updated region, for every order, staggered or nodal, in 2D and 3D; hence so does every sequence of pushes with arbitrary guard cell exchanges in between. The divergence diagnostic computes this quantity.", "quantifier": "every history of pushes, grid, order, coefficients and field (real arithmetic)", "why_tests_cant": "all fields and all histories", "anchors": ["src/field_solvers/Maxwell/maxwell_solver_manager.F90: push_bfield, push_bfield_2d", "src/diags/diags.F90: calc_field_divB"]}
{"id": "C74", "title": "Gauss's law is kept by the electric push", "statement": "An electric push changes the discrete divergence of E by -c^2 mu0 dt times the divergence of the current. So if the deposited current satisfies the discrete continuity equation in each step, then div E - rho/eps0 stays constant, and Gauss's law, if true at the start, is true after any history of pushes and guard cell exchanges.", "quantifier": "every history, grid, order, coefficients, fields and currents (real arithmetic)", "why_tests_cant": "all fields and all histories", "anchors": ["src/field_solvers/Maxwell/maxwell_solver_manager.F90: push_efield, push_efield_2d", "src/diags/diags.F90: calc_field_div"]}
{"id": "C75", "title": "The field pushes are the discrete Maxwell equations", "statement": "A magnetic push subtracts half a time step times the discrete curl of E; an electric push adds c^2 dt (curl B - mu0 J). The step is linear in the fields, keeps uniform fields, is undone by the opposite time step, and on fields that do not vary along y the 3D step is the 2D step. The solver of any order run with order two does the same floating point operations as the solver of order two.", "quantifier": "every grid, order, coefficients, fields and currents", "why_tests_cant": "all fields", "anchors": ["src/field_solvers/Maxwell/maxwell_solver_manager.F90: push_bfield, push_efield, push_bfield_2d, push_efield_2d", "src/field_solvers/Maxwell/yee_solver/yee.F90"]}
{"id": "C76", "title": "The deposited charge density is the B-spline density of the particles", "statement": "When the charge deposition returns, each element of the density array has grown by the sum over the particles of q w / (cell volume) times the product of the centred B-splines of the chosen orders (0 to 3 along each axis), evaluated at the distance between particle and node, and no other element has changed. With four-fold symmetry the particles are first mirrored into the positive quadrant; without individual weights all particles have the weight of the first. The same in 2D for orders up to two.", "quantifier": "every particle set, grid, previous density, combination of orders and options (real arithmetic)", "why_tests_cant": "all positions of all particles, including those on cell boundaries", "anchors": ["src/particle_deposition/charge_deposition/charge_deposition_3d.F90: pxr_depose_rho_n", "src/particle_deposition/charge_deposition/charge_deposition_2d.F90: pxr_depose_rho_n_2dxz"]}
{"id": "C77", "title": "No charge is lost or created by the deposition", "statement": "Cell volume times the sum of the density array grows by exactly the total charge of the particles.", "quantifier": "every particle set, grid, previous density, combination of orders and options (real arithmetic)", "why_tests_cant": "all positions of all particles", "anchors": ["src/particle_deposition/charge_deposition/charge_deposition_3d.F90: pxr_depose_rho_n", "src/particle_deposition/charge_deposition/charge_deposition_2d.F90: pxr_depose_rho_n_2dxz"]}
{"id": "C78", "title": "The charge deposition stays in bounds exactly when there are enough guard cells", "statement": "If each particle is far enough from the ends of the density array (half the order, rounded down), the deposition returns without an access out of bounds. If some particle gives a part of its charge to a node outside of the array, there is an access out of bounds; and for orders above three undefined elements of the weight arrays are used.", "quantifier": "every particle set, grid and combination of orders", "why_tests_cant": "all positions; an access out of bounds may go unnoticed in a test", "anchors": ["src/particle_deposition/charge_deposition/charge_deposition_3d.F90: pxr_depose_rho_n"]}
{"id": "C79", "title": "The centre of charge is deposited exactly", "statement": "For orders from one to three the first moment of the deposited density along each axis is the sum of the charges times positions of the particles.", "quantifier": "every particle set, grid and combination of orders (real arithmetic)", "why_tests_cant": "all positions of all particles", "anchors": ["src/particle_deposition/charge_deposition/charge_deposition_3d.F90: pxr_depose_rho_n"]}
{"id": "C80", "title": "The routines for a fixed order do what the general routine does", "statement": "The scalar charge depositions of order 1 and 3 give, in any arithmetic (so also in floating point, bit by bit), the same array as the deposition of arbitrary order; that of order 2 gives the same real numbers.", "quantifier": "every particle set, array and arithmetic", "why_tests_cant": "all inputs", "anchors": ["src/particle_deposition/charge_deposition/charge_deposition_3d.F90: depose_rho_scalar_1_1_1, depose_rho_scalar_2_2_2, depose_rho_scalar_3_3_3, pxr_depose_rho_n"]}
{"id": "C81", "title": "The order of the atomic updates does not matter", "statement": "If the updates of all particles are executed atomically in any order, as by a parallel loop with atomic updates, the density is the same real number everywhere as after the sequential loop, and an access out of bounds happens in the one case if and only if it happens in the other. Particles of positive charge and weight deposit a nonnegative density, and only at nodes closer than half of the order plus one.", "quantifier": "every particle set, grid and interleaving of the updates (real arithmetic)", "why_tests_cant": "all schedules", "anchors": ["src/particle_deposition/charge_deposition/charge_deposition_3d.F90: depose_rho_scalar_1_1_1, depose_rho_scalar_2_2_2, depose_rho_scalar_3_3_3"]}
{"id": "C82", "title": "In two dimensions with order three the deposited charge is not the charge of the particles", "statement": "The 2D deposition with order three along x or z deposits more than the charge of the particles, always, even in exact arithmetic, because the weights 1/6 and 2/3 are single precision constants; the excess is at most one part in nine million.", "quantifier": "every nonempty set of particles of positive charge and weight, and grid (real arithmetic)", "why_tests_cant": "the excess is smaller than the tolerance of a test; the bound holds for all positions", "anchors": ["src/particle_deposition/charge_deposition/charge_deposition_2d.F90: pxr_depose_rho_n_2dxz"]}
{"id": "C83", "title": "The deposited current satisfies the equation of continuity", "statement": "The current that the Esirkepov deposition adds to jx, jy, jz is zero outside of the arrays and satisfies, at every node, (rho1 - rho0) / dt + div J = 0 in the differences of the Yee scheme, where rho0 and rho1 are the densities (C76) of the particles before and after the move.", "quantifier": "every particle set, grid, time step, order (0 to 3 along each axis) and previous content of the arrays (real arithmetic)", "why_tests_cant": "all moves of all particles", "anchors": ["src/particle_deposition/current_deposition/esirkepov/esirkepov_3d.F90: depose_jxjyjz_esirkepov_1_1_1, depose_jxjyjz_esirkepov_2_2_2, depose_jxjyjz_esirkepov_3_3_3, pxr_depose_jxjyjz_esirkepov_n"]}
{"id": "C84", "title": "The total current is the sum of charge times velocity", "statement": "Cell volume times the sum of each current component grows by the sum over the particles of charge times weight times the velocity component, for orders one to three.", "quantifier": "every particle set, grid, time step and previous content of the arrays (real arithmetic)", "why_tests_cant": "all moves of all particles", "anchors": ["src/particle_deposition/current_deposition/esirkepov/esirkepov_3d.F90: depose_jxjyjz_esirkepov_1_1_1, depose_jxjyjz_esirkepov_2_2_2, depose_jxjyjz_esirkepov_3_3_3, pxr_depose_jxjyjz_esirkepov_n"]}
{"id": "C85", "title": "The current deposition stays in bounds for particles inside the grid that move less than a cell", "statement": "If before and after the move each particle is far enough from the ends of the arrays and moved by less than a cell along each axis, no access is out of bounds (for the routine of arbitrary order: if it moved by at most the distance of light). If some particle moved by more than two cells along an axis, the routines of fixed order access their scratch arrays out of bounds.", "quantifier": "every particle set, grid, time step and order", "why_tests_cant": "all moves of all particles; an access out of bounds may go unnoticed", "anchors": ["src/particle_deposition/current_deposition/esirkepov/esirkepov_3d.F90: depose_jxjyjz_esirkepov_1_1_1, depose_jxjyjz_esirkepov_2_2_2, depose_jxjyjz_esirkepov_3_3_3, pxr_depose_jxjyjz_esirkepov_n"]}
{"id": "C86", "title": "The current depositions of fixed order do what the general one does", "statement": "Whenever the deposition of order 1, 2 or 3 returns, the deposition of arbitrary order, called with the same orders, returns the same arrays.", "quantifier": "every particle set, grid, time step and content of the arrays (real arithmetic)", "why_tests_cant": "all inputs", "anchors": ["src/particle_deposition/current_deposition/esirkepov/esirkepov_3d.F90: depose_jxjyjz_esirkepov_1_1_1, depose_jxjyjz_esirkepov_2_2_2, depose_jxjyjz_esirkepov_3_3_3, pxr_depose_jxjyjz_esirkepov_n"]}
{"id": "C87", "title": "The current does not depend on old scratch values or on the order of the particles", "statement": "What the scratch arrays hold before a particle is treated, for example what another particle or thread left there, has no influence on the result, in any arithmetic. A permutation of the particles changes neither the deposited real numbers nor whether an access is out of bounds.", "quantifier": "every particle set, permutation, scratch content and arithmetic", "why_tests_cant": "all orders and all scratch contents", "anchors": ["src/particle_deposition/current_deposition/esirkepov/esirkepov_3d.F90: depose_jxjyjz_esirkepov_1_1_1, depose_jxjyjz_esirkepov_2_2_2, depose_jxjyjz_esirkepov_3_3_3"]}
{"id": "C88", "title": "The current of an order above three is not deposited", "statement": "The current deposition of arbitrary order, called with an order above three along some axis, deposits nothing: when it returns, all current arrays are as before. It reports no error.", "quantifier": "every particle set, grid and combination of orders with one above three (real arithmetic)", "why_tests_cant": "all inputs", "anchors": ["src/particle_deposition/current_deposition/esirkepov/esirkepov_3d.F90: pxr_depose_jxjyjz_esirkepov_n"]}
{"id": "C89", "title": "Gauss's law holds along a run", "statement": "In a run of particle moves, current depositions, electric and magnetic pushes, arbitrary changes of the momenta and arbitrary guard cell exchanges, div E - rho / eps0 at the inner cells keeps its value; so if Gauss's law holds at the start with the density the charge deposition computes, it holds after any number of steps with the density computed then.", "quantifier": "every history of any length, particle set, order 1 to 3, grid (real arithmetic, second order solver, one tile)", "why_tests_cant": "all histories", "anchors": ["src/particle_deposition/current_deposition/esirkepov/esirkepov_3d.F90", "src/particle_deposition/charge_deposition/charge_deposition_3d.F90: pxr_depose_rho_n", "src/particle_pushers/boris_pusher/boris_3d.F90: pxr_pushxyz", "src/field_solvers/Maxwell/maxwell_solver_manager.F90: push_bfield, push_efield"]}
{"id": "C90", "title": "The gathered fields are the B-spline interpolation of the grid", "statement": "The gathering routine adds to the electric and magnetic field of every particle, component by component, the sum of the grid values of that component weighted with products of B-splines centred at the place of the values on the Yee grid (at the nodes for a nodal grid), of the requested orders, or one order less along the axes where the component lies between the nodes if that is requested.", "quantifier": "every particle set, grid, field values, orders 1 to 3 (mixed up to 2), staggering and order-lowering options, algorithm and block length, particles far enough from the ends of the arrays (real arithmetic)", "why_tests_cant": "all particle positions, fields and option combinations", "anchors": ["src/field_gathering/field_gathering_manager_3d.F90: geteb3d_energy_conserving_generic", "src/field_gathering/energy_conserving/field_gathering_on_3d.F90", "src/field_gathering/energy_conserving/field_gathering_o1_3d.F90", "src/field_gathering/energy_conserving/field_gathering_o2_3d.F90", "src/field_gathering/energy_conserving/field_gathering_o3_3d.F90"]}
{"id": "C91", "title": "Affine fields are gathered exactly", "statement": "If every component of the fields on the grid is an affine function of the position (constant along the axes where it is interpolated with order zero), the particles get the value of that function at their position. In particular a uniform field is gathered exactly.", "quantifier": "every affine field, particle set, grid, orders, options, algorithm and block length as in C90 (real arithmetic)", "why_tests_cant": "all fields and positions", "anchors": ["src/field_gathering/field_gathering_manager_3d.F90: geteb3d_energy_conserving_generic"]}
{"id": "C92", "title": "Gathering does not overshoot", "statement": "Every component that is gathered lies between the smallest and the largest value of that component on the grid.", "quantifier": "every field, particle set, grid, orders, options, algorithm and block length as in C90 (real arithmetic)", "why_tests_cant": "all fields and positions", "anchors": ["src/field_gathering/field_gathering_manager_3d.F90: geteb3d_energy_conserving_generic"]}
{"id": "C93", "title": "Gathering stays within the arrays exactly for particles away from the ends", "statement": "If all particles are at least half the spline width away from the ends of the arrays, no element outside an array is read. If a value that has a weight is not in the array, the routine reads out of bounds. When the routine returns, the fields are those of C90.", "quantifier": "every particle set, grid, array bounds, orders, options, algorithm and block length (real arithmetic)", "why_tests_cant": "all positions and bounds", "anchors": ["src/field_gathering/field_gathering_manager_3d.F90: geteb3d_energy_conserving_generic"]}
{"id": "C94", "title": "The algorithms for gathering agree", "statement": "The scalar, the vectorised and (up to order two) the general algorithm give the same result for the same particles and fields, for any block length of the vectorised loops, and fail on the same inputs.", "quantifier": "every input, pair of algorithms and pair of block lengths (real arithmetic)", "why_tests_cant": "all inputs and block lengths", "anchors": ["src/field_gathering/field_gathering_manager_3d.F90: geteb3d_energy_conserving_generic"]}
{"id": "C95", "title": "The routine of arbitrary order gathers uniform fields exactly (refuted)", "statement": "With algorithm 2, or with mixed orders, a uniform field would have to be gathered exactly as with the other algorithms. It is not: components interpolated with cubic splines along some axis come out strictly larger than the field, by up to one part in six millions, since the coefficients 1/6 and 2/3 are single precision constants.", "quantifier": "every uniform positive field, particle set and grid, orders 1 to 3 (real arithmetic)", "why_tests_cant": "below the tolerance of tests; for all positions", "anchors": ["src/field_gathering/energy_conserving/field_gathering_on_3d.F90: pxr_gete3d_n_energy_conserving, pxr_getb3d_n_energy_conserving"]}
{"id": "C96", "title": "Orders other than one to three are gathered or rejected (refuted)", "statement": "For an order of zero or above three the gathering neither works nor reports an error: the electric field is computed from weights that have never been set, and the magnetic field, gathered alone, is silently left out.", "quantifier": "every input with an order outside 1 to 3 (any arithmetic; the magnetic field alone in real arithmetic)", "why_tests_cant": "undefined behaviour may go unnoticed in a test", "anchors": ["src/field_gathering/energy_conserving/field_gathering_on_3d.F90: pxr_gete3d_n_energy_conserving, pxr_getb3d_n_energy_conserving"]}
{"id": "C97", "title": "Gathering is the adjoint of the charge deposition", "statement": "With the fields given at the nodes and full orders, the sum over the particles of charge times gathered electric field equals the sum over the grid of deposited charge density times electric field times the cell volume: particles and grid agree on the force.", "quantifier": "every particle set, field, grid, order 1 to 3 (real arithmetic)", "why_tests_cant": "all positions and fields", "anchors": ["src/field_gathering/field_gathering_manager_3d.F90: geteb3d_energy_conserving_generic", "src/particle_deposition/charge_deposition/charge_deposition_3d.F90: pxr_depose_rho_n"]}
{"id": "C98", "title": "Every particle is gathered for itself", "statement": "Gathering for a list of particles gives, for each of them, what a call with that particle alone gives, whatever the block length: the result of a particle depends on no other particle, on neither its position in the list nor the block boundaries, to the last bit.", "quantifier": "every arithmetic (in particular IEEE), particle list, block lengths, orders, algorithm and options", "why_tests_cant": "all list and block lengths", "anchors": ["src/field_gathering/field_gathering_manager_3d.F90: geteb3d_energy_conserving_generic"]}
{"id": "C99", "title": "Gathering by tiles is transparent", "statement": "The particles of a tile get the fields interpolated from the arrays of the whole domain, whatever the tile and its guard cells, if they are far enough from the ends of the guard cells; what the tile held before is discarded.", "quantifier": "every tile, number of guard cells, particle set, fields, orders, options and algorithms as in C90 (real arithmetic)", "why_tests_cant": "all tilings", "anchors": ["src/field_gathering/field_gathering_manager_3d.F90: field_gathering_sub"]}
{"id": "C100", "title": "The tiles of a species partition the local domain", "statement": "For any grid, origin, cell size and requested number of tiles, every position between the two ends of the local domain is inside exactly one tile in each direction, and it is the tile whose index the code computes from the position. The tiles share out the grid points without gap or overlap, and a direction is split only if every tile gets at least four cells. The tiles of a new species are empty and exactly those that touch an end of the domain are marked as boundary tiles.", "quantifier": "every origin, cell size, grid size below 2^31, requested tile count, position (real arithmetic)", "why_tests_cant": "all positions, sizes and splits, including sizes not divisible by the number of tiles", "anchors": ["src/parallelization/tiling/tiling.F90: set_tile_split_for_species, init_tile_arrays_for_species, add_particle_to_species"]}
{"id": "C101", "title": "Adding or removing a particle leaves all others alone", "statement": "A particle added to a tile is stored behind the others with all its attributes, whatever the capacity of the arrays; removing particle i removes exactly that one and the last one takes its place. The automatic growth and shrinking of the arrays never loses, duplicates or alters a particle and never leads to an access outside the arrays.", "quantifier": "every tile, number of particles, capacity and position (exact and IEEE binary64 computation of the capacities, up to 2^31 particles)", "why_tests_cant": "every capacity and fill level, with the rounding of 0.4*capacity and 2*capacity+1", "anchors": ["src/parallelization/tiling/tiling.F90: add_particle_at_tile, rm_particle_at_tile, resize_particle_arrays, resize_1D_array_real, resize_2D_array_real"]}
{"id": "C102", "title": "Removal by mask removes the masked particles and no others", "statement": "After removing with a mask, the tile holds exactly the particles whose mask is true and the particle count of the species has decreased by the number of the others.", "quantifier": "every tile, particle list and mask", "why_tests_cant": "every mask; the removal reorders the arrays while they are traversed", "anchors": ["src/parallelization/tiling/tiling.F90: rm_particles_from_species_with_mask, rm_particle_at_tile"]}
{"id": "C103", "title": "Adding a group of particles to a tile", "statement": "A group of particles can be added to a tile whatever its size. (Refuted: the arrays are enlarged once, to twice their size plus one; every group that does not fit then is written past the end of the arrays.)", "quantifier": "every tile, fill level, capacity and group", "why_tests_cant": "exact limit over all capacities and group sizes", "anchors": ["src/parallelization/tiling/tiling.F90: add_group_of_particles_at_tile"]}
{"id": "C104", "title": "Particles added to a species arrive in the tile they are inside of", "statement": "Adding particles to a species keeps all particles already there, counts the new ones, and puts each of them, unaltered and once, into the tile that contains its position.", "quantifier": "every species, domain split and list of particles in the local domain (the tile computed in any arithmetic, the containing tile in exact arithmetic)", "why_tests_cant": "every list of particles and every intermediate capacity", "anchors": ["src/parallelization/tiling/tiling.F90: py_add_particles_to_species, add_particle_to_species"]}
{"id": "C105", "title": "The exchange between tiles conserves the particles and puts each in its tile", "statement": "After the exchange between the tiles of a process, the particles are the same as before with the same attributes; every particle of the local domain is inside its tile, and particles outside the local domain have stayed where they were.", "quantifier": "every distribution of any number of particles over the tiles, every split of the domain", "why_tests_cant": "all distributions; particles move into tiles that are visited later and are examined again there, and arrays are resized during the traversal", "anchors": ["src/boundary_conditions/particle_boundaries.F90: particle_bcs_tiles", "src/parallelization/tiling/tiling.F90: add_particle_at_tile, rm_particle_at_tile"]}
{"id": "C106", "title": "The threaded exchange between tiles is free of interference", "statement": "If no particle has to move by more than one tile, the exchange by several threads ends, for every schedule of the 27 parallel loops, with the same particles in the same order in every tile; none is lost, duplicated or altered and each is where it has to be.", "quantifier": "every interleaving of the iterations on particles of different tiles, every distribution of particles less than four cells away from their tile", "why_tests_cant": "every schedule", "anchors": ["src/boundary_conditions/particle_boundaries.F90: particle_bcs_tiles_openmp"]}
{"id": "C107", "title": "The split of the domain among the processes", "statement": "The cells of a direction are shared out among the processes in order, without gap or overlap, and the shares differ by at most one cell; the local domains computed from them are adjacent, cover the whole domain and are at least one cell wide.", "quantifier": "every number of cells and every number of processes; for the local domains every domain with at least one cell for each process", "why_tests_cant": "all numbers of cells and processes, including those that do not divide", "anchors": ["src/parallelization/mpi/mpi_routines.F90: mpi_initialise"]}
{"id": "C108", "title": "The exchange between processes conserves the particles", "statement": "After the boundary conditions of the particles, the particles of all processes together are exactly those that were not absorbed, each with the attributes given by the boundary conditions; a process has those that stayed and those sent to it, each in the tile of its position; no process waits forever or writes out of bounds; the particle count of each process is right.", "quantifier": "every number of processes in each direction (also one or two, where a neighbour is reached in several directions), every distribution of the particles over processes and tiles, every kind of boundary", "why_tests_cant": "all process grids and distributions; messages between the same two processes are matched only by their order", "anchors": ["src/boundary_conditions/particle_boundaries.F90: particle_bcs_mpi_blocking", "src/parallelization/tiling/tiling.F90: add_particle_to_species, rm_particles_from_species_with_mask"]}
{"id": "C109", "title": "Particles in a periodic domain are where they belong after each step", "statement": "If all particles are less than a cell away from their tiles, then after the exchange between tiles (serial or parallel) and that between processes every particle is inside the domain of its process and inside its tile, and the particles of all processes are those before with their positions taken modulo the lengths of the domain. (True in exact arithmetic; refuted for binary64, where a particle slightly below the domain is rounded to the upper end of the domain.)", "quantifier": "every domain, number of processes and of tiles in each direction, every distribution of particles, every schedule of the parallel exchange", "why_tests_cant": "all geometries and distributions, in particular particles that cross several boundaries at once", "anchors": ["src/boundary_conditions/particle_boundaries.F90: particle_bcs_tiles, particle_bcs_tiles_openmp, particle_bcs_mpi_blocking", "src/parallelization/mpi/mpi_routines.F90: mpi_initialise"]}
{"id": "C110", "title": "Absorbing, reflecting and reinjecting boundaries", "statement": "An absorbing boundary removes the particles beyond it, a reflecting one reverses their momentum and brings them back into the domain, a reinjecting one puts them at rest into their tile. (Refuted for absorbing and reinjecting upper boundaries with the default offset 0: no process has the boundary, and the particles go on to the first process.)", "quantifier": "every domain, number of processes, position of the boundary, particle", "why_tests_cant": "all geometries; the refuted case is lost in a comparison of two positions that are equal on all grids", "anchors": ["src/boundary_conditions/particle_boundaries.F90: particle_bcs_mpi_blocking", "src/parallelization/mpi/mpi_routines.F90: mpi_initialise"]}
{"id": "C111", "title": "Guard cells hold the values of the nodes they stand for", "statement": "After the exchange of guard cells every node stored by a process, guard nodes in corners and edges included, has the value that the process responsible for that node had; own values do not change; guard nodes beyond an absorbing boundary keep their values. Exactly one process is responsible for each node.", "quantifier": "every number of processes and distribution of cells, every number of guard cells below the number of cells, periodic or absorbing axes, blocking or non-blocking, every content", "why_tests_cant": "all layouts and contents; corners are filled only because the axes are exchanged one after the other with full guard ranges", "anchors": ["src/boundary_conditions/field_boundaries.F90: field_bc, exchange_mpi_3d_grid_array_with_guards, exchange_mpi_3d_grid_array_with_guards_nonblocking", "src/parallelization/mpi/mpi_derived_types.F90: create_3d_array_derived_type"]}
{"id": "C112", "title": "After the summation all processes agree on a node", "statement": "After the boundary conditions of charges or currents all copies of a node of the grid, guard copies included, have the identical value.", "quantifier": "every layout, blocking or not, every content, any arithmetic (also rounded)", "why_tests_cant": "all layouts and contents", "anchors": ["src/boundary_conditions/field_boundaries.F90: charge_bcs, current_bcs, summation_bcs, summation_bcs_nonblocking"]}
{"id": "C113", "title": "The summation adds all deposited contributions once", "statement": "After the boundary conditions of charges or currents every copy of a node has the sum of what was deposited at all copies of this node on all processes; the total over the nodes of the grid is the total over all copies before.", "quantifier": "every layout and content in exact arithmetic", "why_tests_cant": "all layouts; a contribution counted twice or lost shows only where guard regions of particular neighbours overlap", "anchors": ["src/boundary_conditions/field_boundaries.F90: charge_bcs, current_bcs, summation_bcs, summation_bcs_nonblocking"]}
{"id": "C114", "title": "Arrays with different numbers of guard cells can be exchanged", "statement": "The exchange of guard cells is right for an array also if arrays with other numbers of guard cells were exchanged before, as the inputs for field and current guard cells allow. (Refuted: the derived types are created for the first array and kept. It holds for equal numbers.)", "quantifier": "every sequence of two arrays", "why_tests_cant": "depends on the history of calls", "anchors": ["src/boundary_conditions/field_boundaries.F90: exchange_mpi_3d_grid_array_with_guards", "src/modules/modules.F90: is_dtype_init"]}
{"id": "C115", "title": "Charges beyond an absorbing boundary do not come back", "statement": "The summation does not add charge deposited beyond an absorbing boundary to nodes of the grid. (Refuted for the blocking summation, which treats every axis as periodic; it holds for the non-blocking one, C113.)", "quantifier": "every layout and content in exact arithmetic", "why_tests_cant": "all layouts and contents", "anchors": ["src/boundary_conditions/field_boundaries.F90: summation_bcs", "src/parallelization/mpi/mpi_routines.F90: get_non_periodic_mpi_bcs"]}
{"id": "C116", "title": "The tiles do not change the deposited charge", "statement": "The charge deposition of a process adds to its charge array the density of all particles of all species that are deposited, as if they had been deposited directly on the grid of the process, however the grid is cut into tiles; no charge is lost at the borders of the tiles or of the process. It needs one thread, or a grid cut along x only in tiles at least as wide as two rows of guard cells (C117).", "quantifier": "every grid, cut in tiles, number of guard cells, order 1 to 3 in each direction, list of species and particles inside their tiles, order in which the tiles are handled, in exact arithmetic", "why_tests_cant": "all positions of particles relative to the tiles and all schedules", "anchors": ["src/particle_deposition/charge_deposition/charge_deposition_manager.F90: pxrdepose_rho_on_grid_sub_openmp_3d_n", "src/particle_deposition/charge_deposition/charge_deposition_manager.F90: pxrdepose_rho_on_grid_sub_openmp_3d", "src/parallelization/tiling/tiling.F90: set_tile_split_for_species"]}
{"id": "C117", "title": "The deposited charge does not depend on the threads", "statement": "The result of the charge deposition is the same for every number of threads and every schedule. (Refuted: in the loop that adds the x-sides of the tiles, tiles that are neighbours along y or z update the same nodes without synchronisation, and the charge of one of them can be lost. It holds, in any arithmetic, if the grid is cut along x only in tiles at least as wide as two rows of guard cells.)", "quantifier": "every number of threads, distribution of the tiles to threads and interleaving of loads and stores", "why_tests_cant": "a race shows up in few schedules only", "anchors": ["src/particle_deposition/charge_deposition/charge_deposition_manager.F90: pxrdepose_rho_on_grid_sub_openmp_3d_n", "src/particle_deposition/charge_deposition/charge_deposition_manager.F90: pxrdepose_rho_on_grid_sub_openmp_3d"]}
{"id": "C118", "title": "The charge density does not depend on the cut among processes and tiles", "statement": "After the charge deposition and the summation over the processes, every process holds at each of its nodes, guard nodes included, the charge density of all particles of the run at that node of the whole grid (along periodic axes summed over the periodic images). So two runs with the same whole grid and the same particles, cut among processes and tiles in any two ways, hold the same density at the same node.", "quantifier": "every number of processes and distribution of cells among them, number of tiles, guard cells, order 1 to 3 in each direction, periodic or absorbing boundaries, list of species and particles inside their tiles, in exact arithmetic", "why_tests_cant": "all decompositions and all positions of particles relative to the borders of processes and tiles", "anchors": ["src/submain.F90: step", "src/particle_deposition/charge_deposition/charge_deposition_manager.F90: pxrdepose_rho_on_grid", "src/boundary_conditions/field_boundaries.F90: charge_bcs"]}
{"id": "C119", "title": "All charge of a parallel run is on the grid", "statement": "After the charge deposition and the summation over the processes, the sum of the charge densities over the nodes of the whole grid, each counted once, times the volume of a cell is the total charge of all particles of all processes.", "quantifier": "every number of processes and distribution of cells among them, number of tiles, guard cells, order, list of species and particles inside their tiles, in exact arithmetic", "why_tests_cant": "all decompositions and all positions of particles", "anchors": ["src/submain.F90: step", "src/particle_deposition/charge_deposition/charge_deposition_manager.F90: pxrdepose_rho_on_grid", "src/boundary_conditions/field_boundaries.F90: charge_bcs"]}
{"id": "C120", "title": "The currents of a process with tiles carry the change of its charge density", "statement": "The current deposition of a process, which deposits each tile's particles in arrays of the tile and then adds these to jx, jy and jz, adds currents that satisfy the discrete equation of continuity at every node: the divergence of the currents is minus the rate of change of the charge density of all particles of the process, between their places one time step before and their places now, also for particles that came from another tile or from outside of the process.", "quantifier": "every grid, number of tiles, guard cells, order 1 to 3 in each direction, optimised or general routine, list of species and particles inside their tiles and not faster than light, time step in which light does not cross a cell, in exact arithmetic; one thread, or any number of threads and any schedule if the tiles are cut along x only and are large enough (see C117)", "why_tests_cant": "all positions of particles relative to the borders of tiles, all distributions among threads", "anchors": ["src/particle_deposition/current_deposition/current_deposition_manager_3d.F90: pxrdepose_currents_on_grid_jxjyjz_esirkepov_sub_openmp", "src/particle_deposition/current_deposition/current_deposition_manager_3d.F90: depose_jxjyjz"]}
{"id": "C121", "title": "Charge is conserved locally in a parallel run", "statement": "Let the charge density be deposited and summed over the processes before the particles move, and the charge density and the currents be deposited and summed after they moved by one time step, have gone to their new tiles and processes and have been wrapped around the periodic borders. Then in the arrays of every process the change of the charge density divided by the time step plus the divergence of the currents is zero at every node, guard nodes included, whose neighbours before it are in the arrays.", "quantifier": "every number of processes and distribution of cells among them, number of tiles, guard cells, order 1 to 3 in each direction, optimised or general routine, list of species and particles not faster than light, time step in which light does not cross a cell, in exact arithmetic", "why_tests_cant": "all decompositions and all moves of particles across the borders of tiles and processes and across the periodic borders", "anchors": ["src/submain.F90: step", "src/particle_deposition/current_deposition/current_deposition_manager_3d.F90: pxrdepose_currents_on_grid_jxjyjz", "src/boundary_conditions/field_boundaries.F90: current_bcs", "src/boundary_conditions/field_boundaries.F90: charge_bcs"]}
{"id": "C122", "title": "The currents do not depend on the cut among processes and tiles", "statement": "After the current deposition and the summation over the processes, every process holds at each of its nodes, guard nodes included, the current density of all particles of the run at that node of the whole grid (along periodic axes summed over the periodic images). So two runs with the same whole grid and the same particles, cut among processes and tiles in any two ways and with the optimised or the general routine, hold the same currents at the same node.", "quantifier": "every number of processes and distribution of cells among them, number of tiles, guard cells, order 1 to 3 in each direction, periodic or absorbing boundaries, list of species and particles inside their tiles and not faster than light, time step in which light does not cross a cell, in exact arithmetic", "why_tests_cant": "all decompositions and all positions and velocities of particles relative to the borders of processes and tiles", "anchors": ["src/submain.F90: step", "src/particle_deposition/current_deposition/current_deposition_manager_3d.F90: pxrdepose_currents_on_grid_jxjyjz", "src/boundary_conditions/field_boundaries.F90: current_bcs"]}
{"id": "C123", "title": "The solver offered to other codes advances the fields by the discrete Maxwell equations", "statement": "A call of the library field solver never accesses the arrays out of bounds. At every point that has as many neighbours on each side as the chosen orders need, it sets E to E + dt (curl B - J) with the magnetic field before the call and then B to B - dt curl E with the electric field after it, where the differences have the coefficients set at initialisation. So the divergence of B never changes, and that of E changes by -dt times the divergence of the current.", "quantifier": "every grid size, number of guard cells, order of the differences per direction (at least two), cell sizes, time step and all fields, in exact arithmetic", "why_tests_cant": "all sizes, orders and field values", "anchors": ["src/init_external.F90: solve_maxwell_fdtd_pxr, evec3d_push_norder, bvec3d_push_norder"]}
{"id": "C124", "title": "The divergence cleaning push adds a gradient and nothing else", "statement": "The cleaning push adds to E, in the region passed for each component, kappa times the discrete gradient of F, and leaves all other elements as they are. It therefore does not change the discrete curl of E, on which the magnetic push depends, and changes the divergence of E by kappa times the discrete Laplacian of F.", "quantifier": "every region, array bounds that contain it, cell sizes, fields E and F and factor kappa, in exact arithmetic", "why_tests_cant": "all regions and field values", "anchors": ["src/field_solvers/Maxwell/yee_solver/yee.F90: pxrpush_em3d_evec_f"]}
{"id": "C125", "title": "The field solver on several processes solves the equations of the whole grid", "statement": "If the arrays of all processes hold the electric and magnetic fields and the currents of the whole periodic grid, guard cells included, then after any number of time steps (magnetic push, exchange, electric push, exchange, magnetic push, exchange) they hold, guard cells included, the fields that the discrete Maxwell equations give on the whole periodic grid. No step fails. Two runs that cut the same grid among processes in different ways have the same fields at the same points.", "quantifier": "every split of the grid with more cells than guard cells per process, every order of the difference formulas that fits in the guard cells, staggered or nodal, every extra updated region, blocking or non-blocking messages, every number of steps, all periodic fields and currents, in exact arithmetic", "why_tests_cant": "all decompositions, orders, histories and field values", "anchors": ["src/submain.F90: step", "src/boundary_conditions/field_boundaries.F90: efield_bcs, bfield_bcs, field_bc", "src/field_solvers/Maxwell/maxwell_solver_manager.F90: push_bfield, push_efield"]}
{"id": "C126", "title": "Gauss's law is kept in a run on several processes", "statement": "In any number of time steps of a periodic run on several processes with tiles, in which particles move among tiles and processes and across the periodic borders, deposit their currents, the currents are summed over the processes and the fields pushed and exchanged, div E - c^2 mu rho does not change at any point of the whole grid (second order solver), and div B does not change at any point (any order).", "quantifier": "every split of the grid among processes and tiles with enough guard cells, every history of particles slower than light, order of deposition 1 to 3, both deposition routines, blocking or non-blocking messages, every initial field, in exact arithmetic", "why_tests_cant": "all decompositions, particle histories and fields", "anchors": ["src/submain.F90: step", "src/particle_deposition/current_deposition/current_deposition_manager_3d.F90: pxrdepose_currents_on_grid_jxjyjz", "src/boundary_conditions/field_boundaries.F90: current_bcs, efield_bcs, bfield_bcs", "src/field_solvers/Maxwell/maxwell_solver_manager.F90: push_bfield, push_efield"]}
{"id": "C127", "title": "The decomposition cannot be seen in the fields of a run with particles", "statement": "Two runs on the same periodic grid that start with the same fields and have the same particles after each time step, cut among processes and tiles in any two ways, have the same electric and magnetic fields at the same points after any number of time steps.", "quantifier": "every two splits among processes and tiles, numbers of guard cells, routines and message modes, every history of particles slower than light, every initial field, in exact arithmetic", "why_tests_cant": "all pairs of decompositions, histories and fields", "anchors": ["src/submain.F90: step", "src/boundary_conditions/field_boundaries.F90: current_bcs, efield_bcs, bfield_bcs", "src/field_solvers/Maxwell/maxwell_solver_manager.F90: push_bfield, push_efield"]}
{"id": "C128", "title": "The default exchange of the particles loses and duplicates nothing", "statement": "The routine used by default, which exchanges the particles between tiles and processes in one pass, ends on every process. Afterwards the particles of all processes together are the particles there were before, with the positions the boundaries give them, except those that an absorbing boundary removes. Each tile has the particles that stay in it, those that come from other tiles and those that come from other processes and belong there.", "quantifier": "every number of processes and tiles, kinds of boundaries, initial size of the send buffers, number of extra attributes and distribution of particles for which the tiles they go to exist; exact arithmetic and binary64", "why_tests_cant": "all process grids, particle distributions and buffer sizes", "anchors": ["src/boundary_conditions/particle_boundaries.F90: particle_bcs_tiles_and_mpi_3d"]}
{"id": "C129", "title": "The default exchange of the particles is right in a periodic domain", "statement": "If each particle is less than one cell away from its tile and each process has at least two tiles in each direction, then after the default exchange each particle is in the process and in the tile that contain it, at its position modulo the periods of the domain. With a single tile in a direction this is false: a particle up to half a cell below the domain of its process stays there.", "quantifier": "every split of a periodic domain among processes and tiles, every distribution of particles less than one cell away from their tiles, in exact arithmetic", "why_tests_cant": "all decompositions and positions", "anchors": ["src/boundary_conditions/particle_boundaries.F90: particle_bcs_tiles_and_mpi_3d"]}
{"id": "C130", "title": "The default exchange treats the kinds of boundaries as the other routine does", "statement": "A particle beyond a periodic, absorbing or reinjecting boundary gets the same treatment from the default routine as from the routine that exchanges particles between the processes only. This is false for reflecting boundaries, at which the particles come in at the other side of the domain, and for an absorbing boundary that has been moved into the domain: particles beyond it are not removed while they are inside of their tile.", "quantifier": "every position, kind and place of boundary, in exact arithmetic", "why_tests_cant": "all positions and boundary settings", "anchors": ["src/boundary_conditions/particle_boundaries.F90: particle_bcs_tiles_and_mpi_3d"]}
{"id": "C131", "title": "The counts of the default exchange", "statement": "The count of the particles of a species on a process should be the number of its particles after the default exchange, and a process should announce to each neighbour the number of particles it sends to it. Both are false: the particles that leave are not subtracted from the count, and the variable announced by a non-blocking send is overwritten before that send is completed.", "quantifier": "every run and every moment at which a non-blocking send reads its buffer", "why_tests_cant": "the moment at which a message is read is not under the control of a test", "anchors": ["src/boundary_conditions/particle_boundaries.F90: particle_bcs_tiles_and_mpi_3d"]}
{"id": "C132", "title": "Gathering and push on tiles: every particle moves in the fields of the whole grid", "statement": "When the processes hold the electric and magnetic field of the whole grid, the call that gathers the fields and pushes the particles of a process ends, keeps the particles in their tiles, and moves each of them by the scheme of the chosen pusher (Boris or Vay) in the fields of the whole grid interpolated at its place, and then by its new velocity; momenta, positions and inverse Lorentz factor are stored, the weight is unchanged.", "quantifier": "every decomposition in processes and tiles, every process, every order in which its tiles are processed, all fields and particles, shapes of order 1 to 3, staggered or nodal fields, all gathering routines that C90 and C94 cover, in exact arithmetic", "why_tests_cant": "all decompositions, orders of the tiles, fields and particles", "anchors": ["src/particle_pushers/particle_pusher_manager_3d.F90: field_gathering_plus_particle_pusher_sub"]}
{"id": "C133", "title": "The main loop on several processes is a simulation of the whole periodic domain", "statement": "A run of n time steps on any number of processes and tiles (gathering and push, particle exchange, current deposition and summation, field solver and guard exchange) is n time steps of one simulation on the whole grid: each step moves every particle by the chosen scheme in the fields interpolated at its place, brings the ones that left back by a period, and advances the fields by Maxwell's equations with the currents of all particles. No particle is lost or duplicated, each stays in the tile and process of its place, no step fails, div B is kept and so is the residual of Gauss's law.", "quantifier": "every decomposition in processes and tiles, every number of time steps, all fields and particles, every way to exchange the particles (default, serial, with threads), every order in which the threads process the tiles, blocking or non-blocking field messages, shapes of order 1 to 3, in exact arithmetic, periodic boundaries", "why_tests_cant": "all decompositions, numbers of steps, schedules, fields and particles", "anchors": ["src/submain.F90: step", "src/particle_pushers/particle_pusher_manager_3d.F90: field_gathering_plus_particle_pusher_sub", "src/boundary_conditions/particle_boundaries.F90: particle_bcs", "src/field_solvers/Maxwell/maxwell_solver_manager.F90: push_bfield, push_efield"]}
{"id": "C134", "title": "The decomposition cannot be seen in the result of a run", "statement": "Two runs of the same problem that start from the same particles and fields, on different numbers of processes and tiles, with different guard cells, threads, exchange routines, messages and deposition or gathering algorithms, have after the same number of time steps the same particles, and the same field values at corresponding grid points.", "quantifier": "every two admissible decompositions and set-ups of a problem, every number of time steps, all initial fields and particles, in exact arithmetic, periodic boundaries", "why_tests_cant": "all pairs of decompositions, and runs of any length", "anchors": ["src/submain.F90: step", "src/boundary_conditions/particle_boundaries.F90: particle_bcs", "src/boundary_conditions/field_boundaries.F90: efield_bcs, bfield_bcs, current_bcs"]}
{"id": "C135", "title": "The Karkkainen push is a curl and keeps the divergence of B", "statement": "A call of the Cole-Karkkainen-Cowan magnetic push on any region of arrays with enough room reads and writes inside the arrays, and replaces B in that region by B - dt curl* E, where curl* is made of differences of averages over the neighbours with the published weights; nothing else changes. The divergence of B made of the same differences does not change. The divergence cleaning push adds the gradient of F made of these differences to E, and so leaves the curl that the next magnetic push sees unchanged. The same holds for the two dimensional routines.", "quantifier": "all fields, array bounds, updated regions, positive cell sizes and time steps, in exact arithmetic", "why_tests_cant": "the weights depend on the three cell sizes, and a wrong sign or neighbour changes the result only slightly on smooth fields", "anchors": ["src/field_solvers/Maxwell/karkkainen_solver/karkkainen.F90: pxrpush_em3d_bvec_ckc, pxrpush_em2d_bvec_ckc, pxrpush_em3d_evec_f_ckc, pxrpush_em2d_evec_f_ckc"]}
{"id": "C136", "title": "The Karkkainen solver is stable up to the smallest cell size", "statement": "In a run that alternates the Cole-Karkkainen-Cowan magnetic push and the electric push without charges, every component of E obeys the wave equation of the scheme. A plane wave of any wave number, on cells of any shape, stays bounded when c dt is below the smallest cell size, and for a larger time step there is a plane wave that grows; for waves along an axis the scheme is the one of Yee.", "quantifier": "all cell sizes, time steps, wave vectors, phases, polarisations, numbers of steps", "why_tests_cant": "all wave numbers and cell shapes and runs of any length; an instability at one wave number shows only after many steps", "anchors": ["src/field_solvers/Maxwell/karkkainen_solver/karkkainen.F90: pxrpush_em3d_bvec_ckc, pxrpush_em2d_bvec_ckc", "src/field_solvers/Maxwell/yee_solver/yee.F90: pxrpush_em3d_evec"]}
{"id": "C137", "title": "The coefficients of the finite difference solver", "statement": "The coefficients computed for a difference formula of order 2h should be the weights of the derivative at the middle of the points 1-h to h. What is computed for coefficient i is the derivative of the interpolation polynomial of point i on the points 1-h to i+1 only. So the staggered formulas of orders 2 and 4 are exact on polynomials up to degree 2 and 4, but the staggered formula of order 6 gives 61/64 of the slope of a linear function, and the nodal formulas give 4 times the slope at order 2 and 0 at order 4.", "quantifier": "all even orders, staggered and nodal; all polynomials, positions and cell sizes", "why_tests_cant": "all orders, polynomials and cell sizes; a test at order 2 or 4 sees nothing wrong", "anchors": ["src/submain.F90: FD_weights, init_stencil_coefficients"]}
{"id": "C138", "title": "The time step and the stability of the solvers", "statement": "The time step chosen at the start keeps every plane wave that the differences see bounded when dtcoef times the sum of the sizes of the coefficients is below 1, in two and three dimensions, and the bound is exact for coefficients of alternating sign. The default dtcoef 0.7 is safe for the orders 2 and 4 on each axis. A dtcoef between 6/7 and 1, below the limit for order 2, makes a plane wave grow without bound at order 4. With dtcoef up to 1 the step is within the limit of the Karkkainen solver, and with the spectral solver light travels the smallest cell size in a step.", "quantifier": "all cell sizes, dtcoef, speeds of light, coefficients, wave vectors, phases, numbers of steps", "why_tests_cant": "all wave numbers, cell shapes and runs of any length", "anchors": ["src/submain.F90: initall, init_stencil_coefficients, FD_weights", "src/initialization/control_file.F90: default_init"]}
{"id": "C139", "title": "The difference coefficients of the spectral solver are the weights of the derivative at every order", "statement": "The coefficients computed from logarithms of factorials for a formula of even order p are, for staggered and for centred grids, exactly the derivatives, at the middle of the stencil, of the polynomials that are 1 at one point of the stencil and 0 at all the others. There are p/2 of them. So the formula of order p gives the exact derivative of every polynomial of degree at most p.", "quantifier": "all even orders p >= 2, staggered and centred, every coefficient, every polynomial of degree at most p, every position and distance of the points", "why_tests_cant": "there is no bound on the order; a table of known coefficients settles only the orders in it, and the other routine of the library that computes such coefficients is right at orders 2 and 4 only", "anchors": ["src/field_solvers/Maxwell/GPSTD_solver/init_kspace_3D.F90: FD_weights_hvincenti, logfactorial"]}
