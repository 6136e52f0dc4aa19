{
 "C15": {
  "note": "The claim is refuted for the last coordinate: the lookup reads one element past the end. The remaining cases (strictly outside) are characterised as well."
 },
 "C17": {
  "note": "Holds in exact arithmetic; in binary64 a table and query exist for which the same code reads out of bounds (C17_binary64_refuted)."
 },
 "C20": {
  "note": "The property as a user would want it is false; the theorems exhibit which truncations are accepted silently."
 },
 "C28": {
  "note": "Exact arithmetic; in IEEE arithmetic of any format event_dt <= dt, while event_dt >= 0 is refuted."
 },
 "C31": {
  "note": "Exact arithmetic; refuted in binary64 for the default parameters when log(nextafter(500,0)) = log(500), as in glibc."
 },
 "C42": {
  "note": "Holds below the table maximum; refuted at and above it (exact arithmetic and binary64)."
 },
 "C35": {
  "note": "Exact arithmetic for every quadrature result; any-arithmetic bracketing of the search; refuted in binary32 under the two correctly rounded libm values stated as hypotheses."
 },
 "C36": {
  "note": "Both directions: finite off the interior nodes, NaN on them."
 },
 "C38": {
  "note": "True from two points up, refuted below."
 },
 "C01": {
  "note": "The view constructor over another vector's data is refuted by a concrete program (C01_view_refuted)."
 },
 "C03": {
  "note": "Exact count for every history; leak exhibited by C03_assignment_refuted."
 },
 "C04": {
  "note": "The property a user would want (content kept) is refuted for every content."
 },
 "C06": {
  "note": "Refuted for the non-const back(), proved for the other overloads."
 },
 "C45": {
  "note": "Exact arithmetic and every IEEE format; refuted at u = 1 (outside the contract of the random numbers)."
 },
 "C46": {
  "note": "Exact arithmetic; NaN exhibited for weak magnetic fields in binary32 and binary64."
 },
 "C47": {
  "note": "About internal_generate_pairs_single: the public wrapper generate_pairs_single does not compile when instantiated (wrong argument list)."
 },
 "C48": {
  "note": "About internal_generate_pairs_multiple: the public wrapper does not compile when instantiated."
 },
 "C57": {
  "note": "Agreement proved for chi and the two rates; for the Schwinger rate the exact discrepancy is proved (C57_schwinger_units, C57_schwinger_units_refuted)."
 },
 "C58": {
  "note": "The energy balance a user would want (conservation) is false; the exact sign and bound of the excess are proved."
 },
 "C39": {
  "note": "Any arithmetic, integrals (oracles) and generator. Histories that raise or are undefined are outside the statement. Quantum synchrotron and Schwinger engines have no assignment operator."
 },
 "C40": {
  "note": "Any arithmetic. The model copies table contents; that the clone shares the storage of the original (views) is not modelled. Refutation for table-less engines in exact arithmetic."
 },
 "C49": {
  "note": "All histories of the modelled operations; user processes and pushers must keep array lengths (respectful). Simplification: a user process does not call back into the species it runs on."
 },
 "C50": {
  "note": "Generic arithmetic. Index lists must be strictly increasing and in range, as the name of the function says."
 },
 "C51": {
  "note": "The registered function is arbitrary; it may raise or be undefined. Finding: unknown IDs are inserted into the map by operator[]."
 },
 "C52": {
  "note": "Finding: the code swaps component arrays instead of entries; exact effect proved, expected property refuted by a two particle witness."
 },
 "C53": {
  "note": "first_use describes the history only. Finding: operator[] inserts an empty function for an unknown ID."
 },
 "C54": {
  "note": "Real arithmetic (RX), arbitrary species; reversibility refuted by a rational witness with E != 0."
 },
 "C55": {
  "note": "Real arithmetic (RX)."
 },
 "C56": {
  "note": "Generic arithmetic, arbitrary generator, tables and external components; up to 2^31-1 photons (get_num_particles returns int). C56_nonvacuous is a computed binary64 run."
 },
 "C60": {
  "note": "Finding. Generic version for every arithmetic, and the distance in real arithmetic."
 },
 "C61": {
  "note": "Finding. Generic arithmetic and generator."
 },
 "C62": {
  "note": "No arithmetic involved; INTEGER(idp) as unbounded integers."
 },
 "C63": {
  "note": "As C62."
 },
 "C64": {
  "note": "As C62; C64_empty_refuted is the finding for empty boxes."
 },
 "C65": {
  "note": "C65_any_arithmetic for every arithmetic; C65_exact and C65_quality in real arithmetic; the two refutations are binary64 runs."
 },
 "C66": {
  "note": "l_cart_comm false; the Cartesian communicator of MPI is not modelled. Refutations hold for every grid of the given shape."
 },
 "C67": {
  "note": "C67_counting_sort for any bins; C67_exact_* in real arithmetic including the FLOOR to a 32 bit integer; refutations for binary64 and for a particle below the corner."
 },
 "C68": {
  "note": "C68_independent and C68_block_size hold for any arithmetic; the others in real arithmetic for an array of any length."
 },
 "C69": {
  "note": "Real arithmetic, arrays of any length; the mass and c are non-zero, c positive."
 },
 "C70": {
  "note": "Formulas in real arithmetic for one particle, extended to arrays by C68_independent. The refutation is for every particle with zero mean momentum."
 },
 "C71": {
  "note": "Real arithmetic. The OpenMP schedule of the energy loop (a SIMD loop without reduction clause) is not modelled; the sum is sequential."
 },
 "C72": {
  "note": "Any arithmetic. One statement a(p)=a(p)+... is atomic in the interleaving. The refutations hold for every field content."
 },
 "C73": {
  "note": "Real arithmetic. The point must have its stencil in the region where the formulas are not cut; for histories, in the cells of the domain."
 },
 "C74": {
  "note": "Real arithmetic. The continuity equation of the current is a hypothesis of the electric step here; see the deposition properties for where it comes from."
 },
 "C75": {
  "note": "Real arithmetic; C75_order_two for any arithmetic. Points of the guard region where the sums are cut are excluded from the formula but included in reversibility, superposition and uniform fields."
 },
 "C76": {
  "note": "Real arithmetic. C78_in_bounds shows when the call returns."
 },
 "C77": {
  "note": "Real arithmetic. 2D: orders up to two; order three is C82."
 },
 "C78": {
  "note": "C78_unknown_order_refuted: orders above three use undefined elements."
 },
 "C79": {
  "note": "Real arithmetic."
 },
 "C80": {
  "note": "Orders 1 and 3 in any arithmetic, order 2 in real arithmetic: its operations are associated differently."
 },
 "C81": {
  "note": "Real arithmetic; the updates are those of the routines of fixed order."
 },
 "C82": {
  "note": "The English property \"the deposited charge is the charge of the particles\" is refuted for 2D order three, with a bound on the error. 1/6 and 2/3 are modelled as the single precision quotients; arithmetic on them is exact."
 },
 "C83": {
  "note": "Real arithmetic. C85 shows when the call returns."
 },
 "C84": {
  "note": "Real arithmetic."
 },
 "C85": {
  "note": "C85_too_fast_refuted: a particle that moves by more than two cells."
 },
 "C86": {
  "note": "Real arithmetic."
 },
 "C87": {
  "note": "Scratch: any arithmetic. Order of the particles: real arithmetic."
 },
 "C88": {
  "note": "The English property \"the current of any order satisfies the continuity equation\" is refuted for orders above three."
 },
 "C89": {
  "note": "Real arithmetic, one species, one tile, second order solver; boundary treatment appears as arbitrary changes of the guard cells of E and B."
 },
 "C90": {
  "note": "Real arithmetic; algorithms compiled with DEV are left out."
 },
 "C91": {
  "note": "Real arithmetic."
 },
 "C92": {
  "note": "Real arithmetic."
 },
 "C93": {
  "note": "Real arithmetic. Success for particles inside is C90_interpolation."
 },
 "C94": {
  "note": "Real arithmetic."
 },
 "C95": {
  "note": "The English property is refuted for algorithm 2 and mixed orders with an order of three."
 },
 "C96": {
  "note": "The English property is refuted."
 },
 "C97": {
  "note": "Real arithmetic, nodal fields, full orders."
 },
 "C98": {
  "note": "Any arithmetic."
 },
 "C99": {
  "note": "Real arithmetic; one tile and one species at a time."
 },
 "C100": {
  "note": "Real arithmetic."
 },
 "C101": {
  "note": "Exact arithmetic and IEEE binary64 for the capacities."
 },
 "C103": {
  "note": "The English property is refuted for groups that need more than one enlargement."
 },
 "C105": {
  "note": "3D. Where a particle has to be is the tile index computed by the code for any arithmetic, and the tile containing the particle in exact arithmetic."
 },
 "C106": {
  "note": "3D. One iteration of the loop over the particles of a tile is atomic; iterations of different tiles interleave arbitrarily."
 },
 "C107": {
  "note": "mpi_initialise without FFTW groups; the local domains in exact arithmetic."
 },
 "C108": {
  "note": "Blocking version, 3D, one species. The receiving process must have a tile for each particle (C109 shows it in exact arithmetic)."
 },
 "C109": {
  "note": "Periodic boundaries in all directions; proved in exact arithmetic, refuted for binary64."
 },
 "C110": {
  "note": "One direction at a time, exact arithmetic; the English property is refuted for upper boundaries with offset 0."
 },
 "C111": {
  "note": "3D. Requires more cells than guard cells in every process and direction."
 },
 "C112": {
  "note": "3D, any arithmetic."
 },
 "C113": {
  "note": "3D, exact arithmetic; blocking version for periodic axes (C115 for absorbing ones)."
 },
 "C114": {
  "note": "The property is refuted: derived types are created once and kept. With equal numbers of guard cells it is proved."
 },
 "C115": {
  "note": "The property is refuted for the blocking summation, which is shown to treat every axis as periodic; the non-blocking one is right (C113)."
 },
 "C116": {
  "note": "3D, exact arithmetic; routines of order 1, 2, 3 (scalar) and of any order. Several threads only for a grid cut along x (C117)."
 },
 "C117": {
  "note": "The property is refuted with two threads and four tiles; C117_lost says what can be lost in general; determinism is proved for grids cut along x only."
 },
 "C118": {
  "note": "3D, exact arithmetic. Combines the tile deposition (C116) and the summation (C113); one thread per process or tiles along x only (C117); the blocking summation with periodic boundaries only (C115)."
 },
 "C119": {
  "note": "3D, exact arithmetic, with the conditions of C118."
 },
 "C120": {
  "note": "3D, exact arithmetic; Esirkepov deposition, optimised routines of order 1, 2, 3 and the general one. Several threads only for a grid cut along x (C117). The three components may come from different interleavings in the model, which allows more outcomes than the code."
 },
 "C121": {
  "note": "3D, exact arithmetic, with the conditions of C118 and C120. The exchange of the particles itself is not run: the theorem takes any two placements that hold the same particles up to periods."
 },
 "C122": {
  "note": "3D, exact arithmetic, with the conditions of C118 and C120. The closed form of the current in every node is in C121_deposited."
 },
 "C123": {
  "note": "3D, exact arithmetic. Near the ends of the arrays, where terms are left out, only the absence of out of bounds accesses is stated."
 },
 "C124": {
  "note": "3D, second order. The routine of the Karkkainen solver is in C135; the 2D routine is not covered."
 },
 "C125": {
  "note": "3D, periodic boundaries, exact arithmetic. Each exchange starts with any derived types that the processes may have created. The absorbing boundaries (split fields) are not covered."
 },
 "C126": {
  "note": "3D, periodic boundaries, exact arithmetic, with the conditions of C121 and C125. The motion of the particles is what C121 assumes: each moves with its velocity, to any tile and process. Gauss's law is for the second order solver (C126_gauss), div B for any order (C126_magnetic)."
 },
 "C127": {
  "note": "3D, periodic boundaries, exact arithmetic. Assumes the same particles after each step; that the same fields give the same particles is not part of it."
 },
 "C128": {
  "note": "3D, one species, tiles visited one after the other. The process that gets a particle must have a tile at its edge for it (C129 shows it in exact arithmetic)."
 },
 "C129": {
  "note": "Periodic boundaries in all directions; proved in exact arithmetic for at least two tiles in each direction, refuted for a single tile."
 },
 "C130": {
  "note": "One direction at a time, exact arithmetic; refuted for reflecting boundaries and for absorbing boundaries inside of the domain."
 },
 "C131": {
  "note": "Refuted by computed runs in binary64."
 },
 "C132": {
  "note": "Boris and Vay pushers, exact arithmetic, one species; the tiles in any order."
 },
 "C133": {
  "note": "3D, periodic boundaries, exact arithmetic, one species without sorting (off by default) and without laser; Boris or Vay pusher; finite difference solver. Conditions: those of C126, arrays large enough for all particles, and for the default exchange two tiles or more in each direction. Gauss's law is for the second order solver. The exchange between processes is the blocking one (mpicom_curr 1), or the default routine."
 },
 "C134": {
  "note": "Same conditions as C133, for both runs. The particles are equal up to order."
 },
 "C135": {
  "note": "Exact arithmetic, positive cell sizes and time step, second order. The bounds of the arrays and of the updated regions are those of the caller, as long as the points the formulas use are inside."
 },
 "C136": {
  "note": "Exact arithmetic, on the unbounded grid; the runs alternate the magnetic push of C135 and the second order electric push. Stability is the one of plane waves (von Neumann); the two dimensional part covers the wave operator."
 },
 "C137": {
  "note": "Exact arithmetic. The intended property, weights of the derivative on all points 1-h to h, is false of the code: the update of the earlier coefficients is inside the test j = i-1 (submain.F90:971-981). C137_weights says for every order what is computed; the refutations give the slopes at order 6 staggered and orders 2 and 4 nodal."
 },
 "C138": {
  "note": "Exact arithmetic, on the unbounded grid, staggered fields; von Neumann stability: runs restricted to one plane wave. C138_wave_equation and C138_fields carry it to the electric field of a run in vacuum. Plane waves on which the Laplacian vanishes are left out of the bound. The spectral part gives the step only."
 },
 "C139": {
  "note": "Exact arithmetic: logarithm and exponential are the real functions. Even orders of at least 2; odd orders, for which the Fortran array has p/2 rounded down entries, are not covered. The factorials, the powers of 16 and the signs are shown to be the derivatives of the Lagrange polynomials for every order, by induction."
 }
}