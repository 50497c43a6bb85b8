{"id": "C01", "title": "Every patch has exactly one owner and ownership lookup inverts the enumeration", "statement": "For any distribution of patches over processes that the domain accepts (explicit counts per process or the default even split), the process/local-index pair reported for a global patch number is the unique pair whose enumeration gives that patch number back, and every (process, local index below that process's count) is hit. With the default split the counts differ by at most one and sum to the number of patches.", "quantifier": "all process counts, all patch counts, all prescribed per-process count vectors (zeros included), all patch numbers", "why_tests_cant": "Patch numbers and count vectors are unbounded; a test samples a few decompositions and cannot exclude an off-by-one for an untested remainder or for a process with no patch.", "anchors": ["src/libmrc/src/mrc_domain_multi.c: gpatch_to_rank_patch, setup_gpatch_off_all, mrc_domain_multi_get_local_patch_info"]}
{"id": "C02", "title": "The patches tile the global grid", "statement": "The boxes reported for all patches are pairwise disjoint and together cover exactly the global index box; each patch's box has the size global/np in each direction.", "quantifier": "all global sizes divisible by the patch grid, all patch grids, all cells", "why_tests_cant": "Needs every cell of every decomposition.", "anchors": ["src/libmrc/src/mrc_domain_multi.c: mrc_domain_multi_do_setup, mrc_domain_multi_get_global_patch_info", "src/include/grid.hxx: Grid_::Grid_"]}
{"id": "C03", "title": "Row-major and Morton patch orderings are bijections", "statement": "For the by-dimension ordering on any patch grid, and for the Morton ordering on any patch grid whose extents are powers of two, converting a curve index to a patch coordinate and back is the identity, coordinates stay inside the patch grid, and converting a coordinate to an index and back is the identity with the index below the number of patches.", "quantifier": "all patch grids, all indices, all coordinates", "why_tests_cant": "Bit interleaving with unequal numbers of bits per direction has infinitely many shapes.", "anchors": ["src/libmrc/src/mrc_domain_lib.c: sfc_bydim_*, sfc_morton_*"]}
{"id": "C04", "title": "Hilbert patch ordering is a bijection on the patch grid", "statement": "For the Hilbert ordering on any patch grid (extents need not be powers of two or equal; 1, 2 or 3 directions in use) whose bounding curve has at most 30 index bits, index-to-coordinate and coordinate-to-index are inverse of each other, stay in range, and consecutive indices enumerate each patch exactly once.", "quantifier": "all numbers of bits, all dimensions of the curve, all indices", "why_tests_cant": "The rotation/Gray-code state depends on all higher-order bits; tests cover only small orders.", "anchors": ["src/libmrc/src/hilbert.c: mrc_hilbert_i2c, mrc_hilbert_c2i", "src/libmrc/src/mrc_domain_lib.c: sfc_hilbert_*"]}
{"id": "C05", "title": "Neighbour lookup is symmetric and periodic", "statement": "If the neighbour of patch A in direction d is patch B, then the neighbour of B in direction -d is A; a neighbour is missing exactly when the step leaves the domain through a non-periodic side; with periodic sides every direction has a neighbour and, coordinate by coordinate, it is the wrapped one.", "quantifier": "all patch grids, all 27 directions, all periodicity flags, all patches", "why_tests_cant": "Corner/edge directions combined with partial periodicity and thin (1-patch) directions are too many to enumerate.", "anchors": ["src/libmrc/src/mrc_domain_multi.c: mrc_domain_multi_get_neighbor_rank_patch"]}
{"id": "C06", "title": "Load balancer assigns every process at least one patch and loses none", "statement": "Whenever the balancer picks a new distribution from positive measured loads, the number of patches per process are all at least 1, sum to the total number of patches, and the assignment keeps curve order (contiguous ranges). It never reads outside the load array.", "quantifier": "all load vectors, all capability vectors, all numbers of processes not exceeding the number of patches", "why_tests_cant": "The greedy recursion stops at a load-dependent split; only a proof over all real load vectors excludes an empty or overrunning split.", "anchors": ["src/libpsc/psc_balance/psc_balance_impl.hxx: best_mapping_recursive, best_mapping"]}
{"id": "C07", "title": "Load balancing never reads out of bounds for zero loads", "statement": "The same as C06, for load vectors in which some patches have zero load (e.g. a balancer configured to count only particles, and empty patches).", "quantifier": "all non-negative load vectors", "why_tests_cant": "A crash only for particular zero patterns; must be decided for all of them.", "anchors": ["src/libpsc/psc_balance/psc_balance_impl.hxx: best_mapping_recursive, get_loads::input"]}
{"id": "C08", "title": "Rebalancing moves particles and fields with their patch", "statement": "After a rebalance, for every global patch the list of particles (values and order) and all field components held by its new owner are identical to what its old owner held; no other data appears and nothing disappears, whatever the old and new distributions and whatever order messages arrive in.", "quantifier": "all old/new distributions of patches over processes, all particle populations, all field contents, all message delivery orders", "why_tests_cant": "Number of (old,new) distribution pairs and interleavings is unbounded.", "anchors": ["src/libpsc/psc_balance/psc_balance_impl.hxx: communicate_ctx, communicate_particles, communicate_fields, Balance_::balance"]}
{"id": "C09", "title": "Ghost-exchange senders and receivers agree on buffer layout", "statement": "For every ordered pair of processes, the sequence of regions the sender packs into its message equals, region for region, the sequence of regions the receiver unpacks from it; message sizes on both sides agree.", "quantifier": "all distributions of patches over processes, all patch grids, all periodicities, all ghost widths", "why_tests_cant": "The receiver sorts its entries by another key than the sender; agreement must hold for each topology including a patch that is its own neighbour several times.", "anchors": ["src/libmrc/src/mrc_ddc_multi.c: mrc_ddc_multi_setup_pattern2, recv_entry_compare, ddc_run_begin, ddc_run_end"]}
{"id": "C10", "title": "Filling ghost points copies the owner's value", "statement": "After fill_ghosts, a ghost point whose (periodically wrapped) global position lies inside the domain holds the value that the owning patch holds in its interior at this position; interior points and ghost points beyond a non-periodic side are unchanged.", "quantifier": "all decompositions, ghost widths up to the patch size, field contents, periodicities, all points", "why_tests_cant": "One theorem over all decompositions replaces infinitely many layouts.", "anchors": ["src/libmrc/src/mrc_ddc_multi.c: ddc_init_inside, ddc_init_outside, mrc_ddc_multi_fill_ghosts", "src/libpsc/psc_bnd/psc_bnd_impl.hxx: Bnd_::fill_ghosts"]}
{"id": "C11", "title": "Adding ghost points conserves the deposited total", "statement": "After add_ghosts, each interior point holds its own value plus the values of all ghost points of all patches that are images of the same global point; hence, with periodic sides, the sum over interior points equals the previous sum over interior and ghost points; the result does not depend on the order in which messages are processed (exact arithmetic).", "quantifier": "all decompositions, ghost widths up to the patch size, field contents, processing orders", "why_tests_cant": "Needs the sum over all overlapping images, including corners shared by eight patches.", "anchors": ["src/libmrc/src/mrc_ddc_multi.c: mrc_ddc_multi_add_ghosts, ddc_run", "src/libpsc/psc_bnd/psc_bnd_impl.hxx: Bnd_::add_ghosts"]}
{"id": "C12", "title": "Cell index is a bijection and invalid positions are recognised", "statement": "For a patch with given cell counts, the cell index of a valid cell position lies in [0, number of cells), distinct valid positions have distinct indices, all indices are attained, and a position with any negative or too large coordinate is reported invalid (index -1), although the check is made with unsigned comparisons of 32-bit integers.", "quantifier": "all patch sizes, all 32-bit positions", "why_tests_cant": "2^96 positions.", "anchors": ["src/include/particle_indexer.hxx: ParticleIndexer::cellIndex, isValidCellPosition, validCellIndex"]}
{"id": "C13", "title": "Boundary processing neither loses nor duplicates particles", "statement": "Processing a patch's particle buffer before the exchange leaves every particle in exactly one place: kept in the patch, in exactly one of the 26 outgoing buffers, or removed; removal happens only for a particle beyond an open or absorbing side of the domain. Relative order of kept particles is preserved, identity, charge and kind of a particle are never changed.", "quantifier": "all particle buffers, all boundary-condition combinations, all positions", "why_tests_cant": "Positions and buffer lengths are unbounded.", "anchors": ["src/include/bnd_particles_impl.hxx: BndParticlesCommon::process_patch"]}
{"id": "C14", "title": "Floating-point rounding cannot strand a particle outside its patch", "statement": "With positions and cell indices computed in IEEE rounded arithmetic, a particle that has moved less than one patch width outside its patch ends, after boundary processing, with a position that maps to a valid cell of the patch it is kept in or sent to; none of the run-time assertions fires.", "quantifier": "all floating-point positions, cell sizes and patch sizes (any precision, round to nearest), all boundary conditions", "why_tests_cant": "The failing inputs, if any, are isolated floating-point numbers next to the boundaries.", "anchors": ["src/include/bnd_particles_impl.hxx: process_patch", "src/include/particle_indexer.hxx: cellPosition"]}
{"id": "C15", "title": "Reflecting walls mirror the particle and keep its speed", "statement": "A particle crossing a reflecting side is put at the mirror position, has its normal momentum negated and tangential momenta unchanged (so kinetic energy is unchanged), and stays in the patch (with respect to that direction).", "quantifier": "all positions, momenta, sides", "why_tests_cant": "Real-valued inputs.", "anchors": ["src/include/bnd_particles_impl.hxx: process_patch (BND_PRT_REFLECTING)"]}
{"id": "C16", "title": "Particle exchange delivers every outgoing particle once to the right patch", "statement": "After the exchange, each patch holds exactly the particles it kept plus, for each direction, the particles its neighbour in that direction put in the buffer for the opposite direction, each exactly once; the global multiset of particles is unchanged, whichever processes own the patches.", "quantifier": "all decompositions, all per-direction buffers, all rank assignments", "why_tests_cant": "The message layout is offset arithmetic over all patches, directions and ranks.", "anchors": ["src/include/ddc_particles.hxx: ddc_particles::ddc_particles, ddc_particles::comm"]}
{"id": "C17", "title": "Exchange preserves global position modulo the periodic domain", "statement": "In exact arithmetic, a particle which leaves its patch through patch or periodic boundaries has, after boundary processing and exchange, the same global position modulo the domain length in each direction, and lies in the patch that covers that position.", "quantifier": "all positions within one patch width, all patches, all periodicity flags", "why_tests_cant": "Real-valued positions, all decompositions.", "anchors": ["src/include/bnd_particles_impl.hxx: process_patch", "src/include/ddc_particles.hxx: comm", "src/libmrc/src/mrc_domain_multi.c: get_neighbor_rank_patch"]}
{"id": "C18", "title": "Particle ids are globally unique", "statement": "Ids handed out by the id generators of all processes during a run are pairwise different, in any interleaving and for any number of requests per process (below overflow of the id type); overflow is characterised.", "quantifier": "all process counts, all interleavings of requests", "why_tests_cant": "Interleavings and counts are unbounded.", "anchors": ["src/include/UniqueIdGenerator.h: UniqueIdGenerator::operator()"]}
{"id": "C19", "title": "Sorting particles by cell is a stable permutation", "statement": "After sorting, a patch's particle list is a permutation of the list before, its cell indices are non-decreasing, and particles in the same cell keep their relative order.", "quantifier": "all particle lists, all numbers of cells", "why_tests_cant": "Lists are unbounded; permutation plus stability must hold for each.", "anchors": ["src/libpsc/psc_sort/psc_sort_impl.hxx: SortCountsort"]}
{"id": "C20", "title": "The two counting sorts produce the same result", "statement": "The cache-friendlier counting sort yields exactly the same list as the plain counting sort on every input, and neither ever writes outside its arrays.", "quantifier": "all particle lists with valid cell indices", "why_tests_cant": "Equivalence over all inputs.", "anchors": ["src/libpsc/psc_sort/psc_sort_impl.hxx: SortCountsort, SortCountsort2"]}
{"id": "C21", "title": "Binary collisions process every cell completely and never across cells", "statement": "The offsets computed from a sorted particle list partition it into one contiguous range per cell; in each cell with at least two particles every particle takes part in at least one collision and in at most two, partners always belong to the same cell, are distinct, and the total time weight applied is that of one full time step per particle.", "quantifier": "all sorted particle lists, all permutations drawn by the shuffle", "why_tests_cant": "Odd/even populations and shuffles are unbounded.", "anchors": ["src/libpsc/psc_collision/psc_collision_impl.hxx: find_cell_offsets, randomize_in_cell, collide_in_cell"]}
{"id": "C22", "title": "A binary collision conserves momentum and energy", "statement": "For two particles of equal statistical weight, each collision leaves the total momentum and the total relativistic energy unchanged (exact arithmetic), for all charges, masses, momenta and random draws.", "quantifier": "all masses, momenta, random numbers, time steps", "why_tests_cant": "Continuous six-dimensional input.", "anchors": ["src/include/binary_collision.hxx: BinaryCollision::operator()"]}
{"id": "C23", "title": "Charge deposition is local, non-negative and sums to the particle's charge", "statement": "For each deposition order and each dimensionality, the weights deposited by one particle are non-negative, sum to exactly one times the particle's contribution, have their centroid at the particle position (first and second order), and touch only grid points within the stencil (inside patch plus ghost points).", "quantifier": "all particle positions in the patch", "why_tests_cant": "Real-valued positions.", "anchors": ["src/include/psc/deposit.hxx: Deposit1st, Deposit2nd, Deposit1stNc, Deposit1stCc, Deposit2ndNc"]}
{"id": "C24", "title": "First-order current deposition (1vb) satisfies the discrete continuity equation", "statement": "For every particle step the deposited current satisfies, at each node, (rho_new - rho_old)/dt + div J = 0 where rho is first-order node-centered deposition of the old and new position, for each dimensionality and each cell-crossing pattern (up to one cell per direction).", "quantifier": "all start and end positions with displacement below one cell, all nodes", "why_tests_cant": "The crossing logic has many branches depending on real comparisons.", "anchors": ["src/include/psc/current_deposition.hxx: CurrentDeposition1vb, calc_j / Current1vbSplit, Current1vbVar1, Current1vb2d", "src/libpsc/psc_push_particles/inc_curr_*.cxx"]}
{"id": "C25", "title": "Esirkepov current deposition satisfies the discrete continuity equation", "statement": "The same for the Esirkepov schemes: for 1st and 2nd order shape functions and each dimensionality, the deposited current balances the change of the deposited density at every node.", "quantifier": "all start and end positions with displacement below one cell, all nodes", "why_tests_cant": "Nested loops with data dependent bounds; off-by-one errors only show for certain crossing patterns.", "anchors": ["src/libpsc/psc_push_particles/pushp_current_esirkepov.hxx", "src/libpsc/psc_push_particles/push_particles_esirkepov.hxx"]}
{"id": "C26", "title": "Field interpolation reproduces uniform (and linear) fields", "statement": "Interpolating a spatially constant field component gives that constant at every particle position; the linear interpolants also reproduce fields linear in position at their staggered locations; interpolation reads only points within the stencil.", "quantifier": "all positions, all field values", "why_tests_cant": "Real-valued positions.", "anchors": ["src/include/interpolate.hxx"]}
{"id": "C27", "title": "Pure magnetic rotation preserves momentum magnitude", "statement": "The momentum update with zero electric field leaves the squared momentum unchanged, and with zero magnetic field adds exactly the electric impulse; for all field values.", "quantifier": "all momenta, all field values, all charge/mass ratios and time steps", "why_tests_cant": "Continuous input.", "anchors": ["src/include/pushp.hxx: AdvanceParticle::push_p"]}
{"id": "C28", "title": "Particles never move faster than light", "statement": "The velocity computed from any momentum has magnitude strictly below one, and the position update in one step is below dt in every active direction and zero in inactive directions.", "quantifier": "all momenta, time steps, dimensionalities", "why_tests_cant": "Continuous input.", "anchors": ["src/include/pushp.hxx: calc_v, push_x"]}
{"id": "C29", "title": "Magnetic divergence is preserved by field advance", "statement": "One magnetic-field update with any electric field leaves the discrete divergence of B unchanged at each cell, for all dimensionalities, so that an initially divergence-free field remains divergence free for any number of steps.", "quantifier": "all field contents, dimensionalities, step counts", "why_tests_cant": "Universal over all field states and histories.", "anchors": ["src/include/psc_push_fields_impl.hxx: PushH"]}
{"id": "C30", "title": "Gauss's law is preserved by a full time step", "statement": "One electric-field update changes the discrete divergence of E by exactly -dt times that of J; together with charge-conserving deposition, the Gauss's law defect div E - rho at each node is the same after any number of time steps as at the start (periodic domain, exact arithmetic).", "quantifier": "all field and particle states, any number of steps", "why_tests_cant": "Combines all components over all histories.", "anchors": ["src/include/psc_push_fields_impl.hxx: PushE", "src/include/psc.hxx: step", "src/libpsc/psc_checks/checks_impl.hxx: gauss, continuity"]}
{"id": "C31", "title": "Marder correction reduces the Gauss defect diffusively and leaves it alone when satisfied", "statement": "One Marder pass changes E by the gradient of the Gauss defect so that the defect obeys a discrete diffusion step; if the defect is zero everywhere E is unchanged; the total defect over a periodic domain is conserved.", "quantifier": "all field states", "why_tests_cant": "Universal over field states; also must hold in each direction symmetrically.", "anchors": ["src/libpsc/psc_push_fields/marder_impl.hxx: correct, correct_gauss, cuda_marder_correct_xyz"]}
{"id": "C32", "title": "Conducting walls impose the mirror symmetry on ghost fields", "statement": "After applying a conducting wall at a lower or upper side, tangential E is zero at the wall and odd around it, normal E is even, normal H is odd and tangential H is even, for each ghost layer and each transverse position that later updates read; current is folded back so that nothing deposited outside remains outside.", "quantifier": "all field contents, all sides, all ghost widths used", "why_tests_cant": "All positions in all layers for all field contents; the six sides are separately coded.", "anchors": ["src/libpsc/psc_bnd_fields/psc_bnd_fields_impl.hxx: conducting_wall_*"]}
{"id": "C33", "title": "Radiating boundary fulfils the one-way wave condition", "statement": "After applying the radiating boundary, the tangential fields at the wall satisfy the discrete Silver-Mueller (one-way wave) relation with the specified incoming pulse, centered in time, including the contribution of currents.", "quantifier": "all field and current values, all pulses, both sides, all directions", "why_tests_cant": "Algebraic identity over all reals; sign errors only show for nonzero currents.", "anchors": ["src/libpsc/psc_bnd_fields/psc_bnd_fields_impl.hxx: radiative_H_lo, radiative_H_hi", "src/libpsc/psc_bnd_fields/radiating_bnd.hxx"]}
{"id": "C34", "title": "Time-averaged output is the mean of the samples in its window", "statement": "Each time-averaged field written at an output step equals the arithmetic mean of the item evaluated at exactly the sampling steps inside the averaging window ending at this step; samples of previous windows never leak in, no window is empty.", "quantifier": "all intervals, window lengths, sampling intervals, all step histories", "why_tests_cant": "Histories unbounded.", "anchors": ["src/include/output_fields.hxx: OutputFieldsItem::perform_diagnostic, OutputTfieldItemParams::do_accum, BaseOutputFieldItemParams::do_out"]}
{"id": "C35", "title": "Disabled outputs are inert", "statement": "An output whose interval is not positive never writes, never accumulates, and never faults at any time step.", "quantifier": "all time steps, all parameter settings with non-positive interval", "why_tests_cant": "Must hold for every setting and step.", "anchors": ["src/include/output_fields.hxx: OutputTfieldItemParams::do_accum", "src/include/checks_params.hxx", "src/include/DiagEnergies.inl"]}
{"id": "C36", "title": "Checkpoints are written at the advertised steps", "statement": "During a run, checkpoints are written exactly at the steps that are multiples of the configured interval except at the very first invocation, plus once at the end if enabled; a restarted run writes the same set of later checkpoints as an uninterrupted run, and a crash at any point can be resumed from the latest written checkpoint with the loss of at most one interval of steps.", "quantifier": "all intervals, all starting steps, all crash points", "why_tests_cant": "Crash points and intervals are unbounded.", "anchors": ["src/include/checkpoint.hxx: Checkpointing::operator(), final", "src/include/psc.hxx: integrate"]}
{"id": "C37", "title": "Checkpoint write followed by read restores the particles", "statement": "Reading a checkpoint's particles into a domain with the same distribution returns each patch's particle list unchanged (all components, same order); per-patch data are restored to the same patches.", "quantifier": "all distributions of patches over processes (including processes without particles), all populations", "why_tests_cant": "Global offsets depend on all processes' sizes.", "anchors": ["src/include/particles_simple.inl: VariableByParticle, PutComponent, GetComponent", "src/include/VariableByPatch.h"]}
{"id": "C38", "title": "Index-range iteration visits each point once in order", "statement": "Iterating over a multi-dimensional range visits exactly the integer points of the box, each exactly once, in lexicographic order (equivalent to nested loops).", "quantifier": "all dimensions, all start/stop vectors", "why_tests_cant": "Unbounded ranges; includes empty ones.", "anchors": ["src/kg/include/kg/VecRange.hxx: VecRange::Iterator::operator++"]}
{"id": "C39", "title": "Field storage never aliases", "statement": "Distinct (component, i, j, k, patch) within the declared box map to distinct storage locations inside the allocation; the view of a single patch addresses the same locations as the whole array.", "quantifier": "all boxes, component and patch counts", "why_tests_cant": "Unbounded shapes.", "anchors": ["src/include/fields3d.hxx: MfieldsCRTP, detail::strides", "src/kg/include/kg/Vec3.h: flatten_index"]}
{"id": "C40", "title": "Active-patch bit field stores and counts what was set", "statement": "After creating a bit field and setting bits in any order, querying returns exactly the bits set, the count equals their number, and no access leaves the allocated storage.", "quantifier": "all extents, all operation sequences", "why_tests_cant": "Operation sequences unbounded; word-boundary positions.", "anchors": ["src/libmrc/src/bitfield3d.c"]}
{"id": "C41", "title": "Sparse patch map lookups return what was inserted", "statement": "The search tree built from the list of active patches returns, for every key inserted, its value, and reports failure for every other key.", "quantifier": "all sorted key/value arrays, all keys", "why_tests_cant": "Unbounded arrays.", "anchors": ["src/libmrc/src/bintree.c: bintree_create_from_ordered_list, bintree_get"]}
{"id": "C42", "title": "Inverse-CDF sampling returns values inside the support and monotone in the random number", "statement": "Sampling by the tabulated inverse cumulative distribution returns a value within the tabulated support, non-decreasing in the uniform random number, for each random number the generator may return.", "quantifier": "all tabulated distributions, all random numbers in the generator's range", "why_tests_cant": "Edge values of the random number.", "anchors": ["src/include/rng.hxx: InvertedCdf"]}
{"id": "C43", "title": "Initial particle loading reproduces density and neutrality", "statement": "With fixed weights, the number of particles created in a cell times their weight reproduces the prescribed density up to rounding to the nearest particle; with real weights exactly; with a neutralising population the total charge in every cell is zero.", "quantifier": "all densities, numbers of populations, charges, cells", "why_tests_cant": "Real-valued densities.", "anchors": ["src/include/setup_particles.hxx: get_n_in_cell, op_cellwise, getWeight"]}
{"id": "C44", "title": "Initial partition estimate agrees with the particles then created", "statement": "The per-patch particle numbers used for the initial load balancing equal the numbers of particles subsequently created for the patch, when random rounding is disabled.", "quantifier": "all density functions, all decompositions", "why_tests_cant": "All density functions.", "anchors": ["src/include/setup_particles.hxx: partition, setupParticles"]}
{"id": "C45", "title": "Input file parsing", "statement": "Each parameter in the input file is returned with the value of its last definition; absent parameters are reported as an error (or default); malformed values raise the documented error.", "quantifier": "all input files", "why_tests_cant": "Unbounded texts.", "anchors": ["src/include/input_params.hxx"]}
{"id": "C46", "title": "The time step respects the Courant condition", "statement": "The length used to choose the time step is positive, not larger than any active cell size, and such that the leap-frog field update is stable: its square times the sum of inverse squared active cell sizes equals one.", "quantifier": "all cell sizes and dimensionalities", "why_tests_cant": "Real-valued.", "anchors": ["src/include/psc.hxx: courant_length"]}
{"id": "C47", "title": "Main loop performs exactly the requested steps in the documented order", "statement": "The run advances the step counter from its start value to the maximum, one at a time, each step performs the documented sequence of sub-operations, the magnetic field having been advanced by two half steps per electric step, and every diagnostic is offered every step number exactly once, in order.", "quantifier": "all start and maximum steps, all intervals", "why_tests_cant": "Unbounded histories.", "anchors": ["src/include/psc.hxx: integrate, step"]}
{"id": "C48", "title": "Folding of moments at reflecting walls conserves the total", "statement": "Adding ghost-point moments back at a reflecting wall moves every contribution deposited beyond the wall to its mirror point inside, so the sum over interior points equals the earlier sum over interior and ghost points.", "quantifier": "all field contents, both sides, all directions, both centerings", "why_tests_cant": "All contents.", "anchors": ["src/include/add_ghosts_reflecting.hxx"]}
{"id": "C49", "title": "Energy diagnostics do not depend on the decomposition", "statement": "The reported field and particle energies are the sums over all cells and particles of the global domain, non-negative, and identical for any distribution of the same cells and particles over patches and processes (exact arithmetic).", "quantifier": "all states, all decompositions", "why_tests_cant": "All decompositions.", "anchors": ["src/include/DiagEnergiesField.h", "src/include/DiagEnergiesParticle.h", "src/include/DiagEnergies.inl"]}
{"id": "C50", "title": "Particle ids stay unique over rebalancing and restart", "statement": "No two particles injected during a whole run, including runs in which patches are rebalanced between processes or which continue from a checkpoint, get the same id.", "quantifier": "all sequences of injections and rebalancing events, all process counts", "why_tests_cant": "The generator is recreated silently; needs a long run with both injection and rebalancing.", "anchors": ["src/include/particles_simple.hxx: MparticlesSimple (uid_gen)", "src/include/UniqueIdGenerator.h", "src/libpsc/psc_balance/psc_balance_impl.hxx: communicate_particles"]}
{"id": "C51", "title": "Every sub-step reads up-to-date ghost points", "statement": "Whenever a sub-operation of a time step reads ghost points of E, H or J (at patch boundaries or at walls of the domain), they have been filled from the current interior values: no ghost point is stale, and no operation uses particles outside their patch.", "quantifier": "all configurations of intervals, injectors and correctors, all run lengths, with and without walls", "why_tests_cant": "Needs particular combinations of optional operations and boundary conditions, and stale values differ only slightly.", "anchors": ["src/include/psc.hxx: step", "src/libpsc/psc_push_fields/marder_impl.hxx: correct_gauss", "src/libpsc/psc_bnd_fields/psc_bnd_fields_impl.hxx: fill_ghosts_E"]}
{"id": "C52", "title": "Currents are deposited within the patch and its ghost points", "statement": "A particle that starts a step inside its patch and moves less than one cell per direction deposits current only at points of the patch or of its two layers of ghost points (n_ghosts = 2 in every set-up), for every deposition scheme and dimensionality.", "quantifier": "all positions, all displacements allowed by the time step", "why_tests_cant": "Only particles in a thin layer at an upper patch boundary with nearly the speed of light along one axis show it, and the write lands in memory that exists.", "anchors": ["src/libpsc/psc_push_particles/pushp_current_esirkepov.hxx", "src/libpsc/psc_push_particles/inc_curr_1vb_split.cxx", "src/libpsc/psc_push_particles/inc_curr_1vb_var1.cxx", "src/psc_bubble_yz.cxx: n_ghosts"]}
{"id": "C53", "title": "Created particles lie inside their patch and cell", "statement": "Every particle created during set-up has a valid kind and a position inside the patch it is added to, in the cell whose density it represents, with or without random offsets, so that the asserts of the injector hold and particles need no exchange before the first step.", "quantifier": "all density functions, all random offsets, all cells, both centerings, invariant directions", "why_tests_cant": "All real positions and offsets.", "anchors": ["src/include/setup_particles.hxx: setupParticles", "src/include/injector_simple.hxx"]}
{"id": "C54", "title": "The current a particle deposits adds up to its charge times its velocity", "statement": "Summed over all points of the grid, what one particle adds to each component of the current in one step is its charge times its velocity in that direction (the displacement over the time step, or the velocity itself in invariant directions), for every deposition scheme and dimensionality.", "quantifier": "all positions, displacements, velocities, cell sizes and time steps", "why_tests_cant": "Continuity alone does not fix the component out of the plane or a divergence-free error, and the sum over a real run hides single particles.", "anchors": ["src/libpsc/psc_push_particles/inc_curr_1vb_split.cxx", "src/libpsc/psc_push_particles/inc_curr_zigzag.cxx", "src/libpsc/psc_push_particles/inc_curr_1vb_var1.cxx", "src/libpsc/psc_push_particles/inc_curr_1vb_2d.cxx: calc_j_oop", "src/libpsc/psc_push_particles/pushp_current_esirkepov.hxx"]}
{"id": "C55", "title": "The file of particles holds what its index says", "statement": "Whatever box of cells is asked for, the HDF5 file of particles contains each selected particle of that box exactly once; idx_begin and idx_end give for every cell of the box and every kind the records of exactly the particles of that cell and kind, on all processes, in whatever order the messages arrive; and every record belongs to one cell and kind.", "quantifier": "all decompositions and process counts, all boxes, all particles, selectors and kinds, all message orders", "why_tests_cant": "Tests write the whole domain; a box which starts within a patch, on the process which gathers the index, is not tried.", "anchors": ["src/libpsc/psc_output_particles/output_particles_hdf5_impl.hxx: count_sort, find_patch_bounds, make_local_particle_array, operator(), adjust_params"]}
{"id": "C56", "title": "Particles injected at the boundary enter the patch and bring their current", "statement": "Injection at the lower boundary in y adds exactly those particles, of the population imagined in the row of cells below the domain, which cross the boundary in the step; each lies in the first row of cells of its patch, has the momentum of the velocity drawn, and deposits the current of its way, so that charge is conserved at all points of the patch from the second row on (and at the boundary with the imagined particles counted); nothing is written outside the ghost points and no assert fails, whatever is drawn.", "quantifier": "all draws of the generators, all numbers of particles per cell, all patches, 3D and yz, all 1vb current schemes", "why_tests_cant": "The failing draws come from the tail of a normal distribution; the tests use cold populations.", "anchors": ["src/include/boundary_injector.hxx: inject", "src/include/boundary_injector.hxx: ParticleGeneratorMaxwellian", "src/include/setup_particles.hxx: vel_to_4vel", "src/include/injector_simple.hxx"]}
{"id": "C57", "title": "Moments are sums over all particles, at every point and under the right name", "statement": "Each component of a moment (density, velocity, momentum, the 13 of moment_all, and rho) is, at every point of every patch, the sum over the particles of the kind in its name, of all patches of all processes, of the quantity in its name times the particle's share of that point; summed over the points it is the sum over the particles. So the same particles give the same moments in any decomposition, on any number of processes, in any order of messages.", "quantifier": "all periodic decompositions, process counts and message orders, all particles inside their patches, all kinds with a charge, 3D and yz, all three deposition codes", "why_tests_cant": "Tests deposit few particles in one patch; an index mixed up for one of several kinds, or a share lost between processes, shows in none of them.", "anchors": ["src/include/psc/moment.hxx: deposit, moment_n, moment_rho, moment_v, moment_p, moment_all", "src/include/fields_item.hxx: addKindSuffix, ItemMoment::operator()", "src/include/const_accessor_simple.hxx: w"]}
{"id": "C58", "title": "The CUDA particle store holds the right particles in every state", "statement": "Whatever sequence of injecting, pushing, exchanging, reordering and reading is done on the GPU's particle store, no assert fails and no array is accessed outside; the offsets and ids give for each block of each patch exactly the particles that are in it; the exchange is handed exactly the particles that left their patch, and a read returns exactly the particles there are, patch by patch; and none of this depends on the order in which the threads of a kernel store.", "quantifier": "all sequences of operations of any length, all pushes, all received particles, all block sizes and numbers of patches, all orders of the threads' stores", "why_tests_cant": "There are no tests that run the GPU code on more than a few steps; a process that runs empty does not occur in any.", "anchors": ["src/libpsc/cuda/cuda_mparticles.cxx: inject, reorder, reorder_and_offsets, get_particles", "src/libpsc/cuda/cuda_mparticles_sort.hxx: cuda_mparticles_sort_by_block", "src/libpsc/cuda/cuda_mparticles_indexer.h", "src/libpsc/cuda/cuda_bndp.h: prep", "src/libpsc/cuda/cuda_bndp.cxx: post", "src/libpsc/cuda/cuda_push_mprts_yz.cxx: push_mprts"]}
{"id": "C59", "title": "On the GPU, the current of a step is that of this step", "statement": "After the push and the adding of ghost points, the current on every process is what the particles of all processes deposited in this step, whatever it was before.", "quantifier": "all numbers of particles on the process, including none, all previous currents and all contributions of neighbours", "why_tests_cant": "Tests have particles on every process.", "anchors": ["src/libpsc/cuda/cuda_push_mprts_yz.cxx: push_mprts, push_mprts_ab, zero_currents", "src/include/psc.hxx: step"]}
{"id": "C60", "title": "The current of a particle is the time average of its moving charge", "statement": "What the first-order (1vb) schemes add to each component of the current at each grid point in one step is exactly the integral over the step of charge times velocity times the weight of the particle there along its straight path (full weight in its cell in the component's own direction, the hat function in the others), whichever cell boundaries the particle crosses and in which order.", "quantifier": "all start and end positions with displacement up to one cell, all velocities, cell sizes, time steps, grid points, components", "why_tests_cant": "Continuity leaves the current undetermined up to a curl and the component out of the plane undetermined altogether; the integral depends on the order of real-valued crossing times.", "anchors": ["src/libpsc/psc_push_particles/inc_curr_1vb_split.cxx", "src/libpsc/psc_push_particles/inc_curr_1vb_var1.cxx", "src/libpsc/psc_push_particles/inc_curr_1vb_2d.cxx", "src/libpsc/psc_push_particles/inc_curr.cxx"]}
{"id": "C61", "title": "The GPU's current deposition conserves charge and is the time average of the moving charge", "statement": "For each particle the GPU's calc_j ends; what it adds satisfies the discrete continuity equation, is in every component the time average over the step of charge times velocity times weight, and lies within one point before and two after the block the particle is in.", "quantifier": "all positions in all blocks, all velocities with displacement up to one cell, both dimensionalities and deposition variants", "why_tests_cant": "The GPU code has its own algorithm with an unbounded loop that ends by comparisons of reals, and runs only on a GPU.", "anchors": ["src/libpsc/cuda/cuda_push_mprts_yz.cxx: calc_j, calc_dx1, curr_vb_cell, curr_vb_cell_upd", "src/libpsc/cuda/cuda_currmem.hxx"]}
{"id": "C62", "title": "The kernels of the GPU process every block and every particle once", "statement": "Each way of launching the CUDA kernels over the blocks of cells (one block per thread block, a strided loop over all, four launches of every other block) processes every block of every patch exactly once, with the right number, patch and first cell; and the threads of a block take each of its particles exactly once, whatever the first slot.", "quantifier": "all block sizes, numbers of blocks per direction (also odd) and patches, all ranges of slots and numbers of threads", "why_tests_cant": "Tests of the GPU code use grids with equal numbers of blocks in all directions.", "anchors": ["src/libpsc/cuda/cuda_mparticles_indexer.h: BlockSimple, BlockSimple2, BlockQ", "src/libpsc/cuda/cuda_mparticles.hxx: in_block_loop", "src/libpsc/cuda/cuda_push_mprts_yz.cxx: push_mprts_ab"]}
{"id": "C63", "title": "The push on the GPU leaves the current of all particles, whatever the order of threads", "statement": "However the threads of a block and the blocks of a launch are interleaved, the push of all particles terminates with no access outside the shared or global arrays, and the current in each patch is the sum of that of its particles: it carries the change of the charge density and is its particles' current averaged over the step, whatever was in the array before.", "quantifier": "all interleavings of loads and stores of all threads, all particles stored, all block sizes of at least 3 with their ghost points within a thread block, all velocities with displacement up to a cell", "why_tests_cant": "A race shows up once in very many runs, and only as a slightly wrong number.", "anchors": ["src/libpsc/cuda/cuda_push_mprts_yz.cxx: push_mprts_ab, push_mprts, zero_currents", "src/libpsc/cuda/cuda_currmem.hxx: CurrmemShared, CurrmemGlobal, add_to_fld", "src/libpsc/cuda/cuda_mparticles_indexer.h: BlockQ"]}
{"id": "C64", "title": "The collisions on the GPU pair the particles of each cell, whatever the order of threads", "statement": "A round of collisions on the GPU: whatever is drawn, however the sort puts particles of equal keys, and however the threads interleave, no assert fails and no access is out of bounds; every particle but at most one per cell collides exactly once, with one of the same cell of the same patch; in a cell of k particles there are k/2 collisions of total strength nudt0 k^2 / 2 also for odd k; momentum and energy of each cell are kept, positions, weights, kinds stay with their particle, and the store goes on holding the particles.", "quantifier": "all stores (in order or not yet reordered), block sizes, numbers of patches, numbers of particles per cell, draws, sorts, interleavings of the threads' reads and stores", "why_tests_cant": "A pair across cells, a particle in two pairs, or a lost store happens only for particular draws and interleavings, and shows as a slight drift of the energy.", "anchors": ["src/libpsc/cuda/cuda_collision.hxx: operator(), d_collide", "src/libpsc/cuda/cuda_mparticles_sort.hxx: k_find_random_cell_indices_ids, cuda_mparticles_randomize_sort", "src/libpsc/cuda/cuda_mparticles_indexer.h: validCellIndex"]}
{"id": "C65", "title": "The moments computed on the GPU are those of the CPU code", "statement": "Whatever the order of the particles in the GPU's store and of its threads, the kernels for charge density, density and all moments terminate with no access out of bounds, leave the particles in the store, and after the ghost points have been added the output has, under the same names, the same values as that of the CPU code: the sums over all particles of each kind with the shape function of the points.", "quantifier": "all stores (in order or not yet reordered), block sizes, decompositions, numbers of particles, positions in the patches, momenta, kinds with charge, orders of the atomic adds; in three dimensions and in y and z", "why_tests_cant": "Tests of the GPU's output compare a few particles in domains with equal numbers of blocks in all directions.", "anchors": ["src/libpsc/cuda/cuda_moments_1st_nc.cxx", "src/libpsc/cuda/fields_item_moments_1st_cuda.hxx", "src/libpsc/cuda/cuda_mparticles_indexer.h: BlockSimple, find_idx_off_1st"]}
{"id": "C66", "title": "The ghost exchange on the GPU gives what the CPU's gives", "statement": "On the GPU, filling or adding ghost points of a range of components ends on all processes with no access out of bounds and no message left over, and the memory of each process then holds what the CPU code's exchange makes of the same field: filled ghost points have the value of the point's owner, added ones are summed up at the owner, and everything else is unchanged. In any sequence of calls and rebalancings the lists of positions kept from earlier calls are the ones a new call would make.", "quantifier": "all domains, processes and distributions of patches, ranges of components (at most 99 components for the lists kept), orders of messages, orders of the threads' stores and atomic additions, sequences of fill, add and rebalance", "why_tests_cant": "The lists are kept under a key that leaves most parameters out, so an error depends on which calls came before; runs use few processes and few fields.", "anchors": ["src/libpsc/cuda/cuda_bnd.hxx: Maps, setup_remote_maps, setup_local_maps, map_setup, run, ddc_run, postReceives, postSends, add_ghosts, fill_ghosts", "src/libpsc/cuda/bnd_cuda_3_impl.cxx", "src/libmrc/src/mrc_ddc_multi.c: mrc_ddc_multi_setup_pattern2"]}
{"id": "C67", "title": "The push on the GPU does to every particle what the CPU's does", "statement": "The push on the GPU loads the fields of a block into a cache in shared memory; after loading, every point that an interpolation to one of the block's particles reads is there with the field's value, whatever was there before and in whichever order the threads store, and no access leaves the cache or the field. For every particle of every block, momentum and position afterwards are those the CPU's push gives for the same fields, kind and weight stay, and its block index is that of its new block or marks it as having left; the boundary exchange after it is given just those that left.", "quantifier": "all stores that can be reached (in order or not yet reordered), block sizes, numbers of blocks and patches, fields, particles' positions, momenta and kinds, former contents of shared memory, orders of threads, blocks and stores; in three dimensions and in y and z", "why_tests_cant": "The cache is indexed with hand-made offsets; a wrong one reads a neighbouring component or point, which for smooth fields changes the result slightly.", "anchors": ["src/libpsc/cuda/cuda_fld_cache.hxx", "src/libpsc/cuda/cuda_push_mprts_yz.cxx: push_part_one, push_mprts, push_mprts_ab", "src/libpsc/cuda/cuda_mparticles.hxx: dqs_", "src/include/interpolate.hxx", "src/include/pushp.hxx"]}
{"id": "C68", "title": "The field updates on the GPU are those of the CPU", "statement": "The updates of E and H on the GPU (assignments between shifted views in y and z, kernels in three dimensions) and its Marder correction in y and z make no access out of bounds, the shapes of the views they combine agree, and in whatever order elements and threads run, every patch holds afterwards, at every point with storage, what the CPU code computes from the same fields; all other components are unchanged.", "quantifier": "all grids of the two variants (two ghost points, any number of patches including none, any sizes), fields, step sizes and fractions, orders of the elements and of the threads' statements", "why_tests_cant": "A slice that is off by one changes only the ghost points, which the next exchange may hide; a read of an element that another thread has already updated depends on the schedule.", "anchors": ["src/libpsc/cuda/push_fields_cuda_impl.cxx", "src/include/psc_push_fields_impl.hxx", "src/libpsc/psc_push_fields/marder_impl.hxx: cuda_marder_correct_yz, cuda_marder_correct_xyz, correct"]}
{"id": "C69", "title": "Heating changes only momenta, by the rate at the particle's present place, on CPU and GPU", "statement": "The heating rate of the foil spot is, within the foil, the strength of the kind times the sum of the Gaussians of the spot and its nearest periodic images, is never negative, is at most nine (in y and z three) times the strength, and is zero outside of the foil; at the two sides of a periodic domain it differs by at most the strength times exp(-Ly^2/rH^2). Heating leaves position, kind and weight of every particle as they are, loses and duplicates none, and adds to its momentum sqrt(rate * time between heatings) times normals, where the rate is that at the particle's global position. On the CPU the normals come from the first round of six random numbers that are all below 1, and are bounded by sqrt(48 ln 2). On the GPU this holds for every store that holds the particles (also while reordering is due), every order of threads and stores, and after any history of rebalancing and heating: the cached corners of the patches are the present ones, and there are generators for all threads.", "quantifier": "All spots, positions, kinds, random numbers, patches, particles and stores, all orders of threads, all histories of rebalancing, resizing of the generators and heating.", "why_tests_cant": "A test heats once with fixed patches; corners cached before a rebalancing, an infinite normal from a random number rounded to 1, or a particle that is heated twice or not at all, only show in long runs or as wrong statistics.", "anchors": ["src/include/heating_spot_foil.hxx: operator(), get_H_shape", "src/libpsc/psc_heating/psc_heating_impl.hxx: kick_particle, operator()", "src/libpsc/cuda/cuda_heating.cxx: k_heating_run_foil, d_particle_kick, operator(), reset", "src/libpsc/cuda/rng_state.hxx: resize"]}
{"id": "C70", "title": "Gauss's law is kept when the particles are pushed on the GPU", "statement": "On a periodic domain whose processes all have particles at every step, a time step whose push is done by the GPU kernels (particles stored by block, current collected in shared memory and added to the field for dim_yz, added atomically to the field for dim_xyz), followed by particle exchange, exchange of ghost points and field updates, can always be made without an access out of bounds, changes the charge density by exactly the divergence of the current the kernels left, and so leaves div E - rho as it was at every point of every patch, after any number of steps, whatever the new momenta and the order of the threads.", "quantifier": "all decompositions of a periodic domain into patches made of whole blocks, all numbers of processes, all particles and new momenta, all stores that hold the particles, all schedules of the threads and messages, any number of steps, in exact arithmetic", "why_tests_cant": "The kernels run in unpredictable orders; a wrong current at one block boundary shows as a tiny violation of Gauss's law that grows over many steps, and tests look at one small run with a tolerance.", "anchors": ["src/libpsc/cuda/cuda_push_mprts_yz.cxx:240-393", "src/libpsc/cuda/cuda_push_mprts_yz.cxx:455-565", "src/libpsc/cuda/cuda_currmem.hxx:20-153", "src/libpsc/cuda/push_particles_cuda_impl.hxx:19-58", "src/include/psc.hxx:356-469"]}
{"id": "C71", "title": "The initial fields are the given functions on Yee's grid, in all patches and ghost points", "statement": "Setting up the initial fields adds, at every stored point (own or ghost) of every patch, to each component of E, H and J the given function's value at that component's place on Yee's staggered grid, accesses no array outside and changes nothing else; the GPU's version does the same. If the function is periodic as the domain is, all patches that store a point agree on its value and the filling of ghost points before the first step changes nothing; for any function and any rounding all fields are single-valued after that filling. The discrete divergences of the initial H and E are the central differences of the given functions, so div H is zero if the function is a discrete curl, and div E - rho after any number of steps is what the given function and the initial particles make it. Scalar fields get their function at the nodes or cell centres; other centerings fail the assert.", "quantifier": "all domains, patches, processes, numbers of ghost points (equal in all directions of more than one cell), functions, fields before, and numbers of steps; exact arithmetic, but for the statement about any rounding", "why_tests_cant": "A test samples one function; a component set half a cell off is a plausible but wrong initial state, and shows up as a divergence that the scheme then keeps.", "anchors": ["src/include/setup_fields.hxx:20-82", "src/include/centering.hxx:25-53", "src/libpsc/cuda/setup_fields_cuda.hxx:6-59", "src/include/grid.hxx:34-61", "src/include/psc.hxx:220-228"]}
{"id": "C72", "title": "In double precision all patches give a point of space the same initial value", "statement": "For every domain and every function that is periodic as the domain is, the setup of the fields, with positions computed in doubles, gives a point of space the same value in every patch that stores it.", "quantifier": "all domains, decompositions into patches, and periodic functions; positions rounded to double after each operation", "why_tests_cant": "Positions are computed from the corner of the patch, so the rounding differs between patches by one unit in the last place, for some spacings only; it matters only where the function jumps.", "anchors": ["src/include/grid.hxx:34-61", "src/include/grid.hxx:84-88", "src/include/grid/domain.hxx:46", "src/include/setup_fields.hxx:20-46"]}
{"id": "C73", "title": "Looking up a value in a table of initial conditions interpolates linearly between its rows", "statement": "In a table whose independent column is strictly increasing, the row found for a value is the last one not above it, -1 below all rows and the number of rows above all, whatever the guess the search starts from and however it is rounded. The interpolated value is the one on the line through the points of the table (so between the values of the column, exact at the rows under any rounding, and exact for linear columns), and a value outside of the table is refused with an exception. The hole size found in a table is the position of the last row whose density is off by more than the tolerance.", "quantifier": "all tables of at least two rows, evenly spaced or not, all values for which the first guess fits into an int, all roundings for the row and for values at rows; exact arithmetic for values between rows", "why_tests_cant": "The search starts from a guess that is right for evenly spaced rows starting at zero, which is what test data look like; an off-by-one shows only at rows or at the ends.", "anchors": ["src/psc_bgk_util/table.hxx:162-223", "src/psc_bgk_util/bgk_params.hxx:41-52"]}
{"id": "C74", "title": "A table is read as it is written, or refused", "statement": "Whatever the kind of line ends, a table is read as it is written: columns under their names, rows in order. A file that cannot be opened or is malformed, and a column that is not there, are refused; looking up a value that lies within the table gives a value.", "quantifier": "all files, all names of columns, all values within the independent column", "why_tests_cant": "Tests read the one table at hand with columns that exist.", "anchors": ["src/psc_bgk_util/table.hxx:32-58", "src/psc_bgk_util/table.hxx:83-160", "src/psc_bgk_util/table.hxx:166-174", "src/psc_bgk_util/table.hxx:205-206"]}
{"id": "C75", "title": "Electrons of the BGK case are drawn from the BGK distribution", "statement": "The cumulative distribution function from which azimuthal velocities are drawn is that of the density exp(-w) (1 - h0 exp(-4 k l^2)) of energy w and angular momentum l, in the units of the code; it increases strictly from 0 to 1. The momentum of an electron is its mass times the drawn velocities along the azimuthal, radial and x direction, scaled and reversed as asked for. Coordinates outside of the box are brought back by whole boxes.", "quantifier": "all radii, velocities, thermal velocities beta > 0, k >= 0, h0 < 1, vector potentials from the table or the field, all positions", "why_tests_cant": "Tests compare a few moments; a wrong mean, width or weight of one of the two Gaussians changes a distribution that is drawn at random, and by little.", "anchors": ["src/psc_bgk.cxx:166-173", "src/psc_bgk.cxx:194-245", "src/psc_bgk.cxx:300-303"]}
{"id": "C76", "title": "The box of the BGK case holds its spike and its hole and is cut as asked for", "statement": "The calculated radius of the spike is where the mean of the second Gaussian of the velocity distribution reaches 4.5, for every field; the calculated box reaches beyond spike and hole. The number of patches is such that each has the number of cells asked for, or the program says that this cannot be.", "quantifier": "all fields but 0, k > 0, beta > 0, holes, relative sizes >= 1, numbers of cells and of cells per patch", "why_tests_cant": "The solution of the cubic is checked for one set of parameters at most; numbers of cells in use are powers of two.", "anchors": ["src/psc_bgk_util/bgk_params.hxx:22-37", "src/psc_bgk_util/bgk_params.hxx:54-60", "src/psc_bgk_util/bgk_params.hxx:122-124", "src/psc_bgk_util/bgk_params.hxx:158-169", "src/include/grid/domain.hxx:27-44"]}
{"id": "C77", "title": "Processes with one patch each find out where it is", "statement": "When a domain of one patch per process is set up, no order of steps of the processes leads to a deadlock, not even if MPI buffers no message; every order ends with the same offsets, the sums of the cells of the processes before on the line, and if these fit together the patches tile the domain. The information on patches agrees with them, and neighbours are those across the periodic or not periodic boundary.", "quantifier": "all numbers of processes in three dimensions, all numbers of cells of each process, all orders of steps, with messages buffered or not", "why_tests_cant": "A test runs with a few processes and sees one order of steps; the MPI in use buffers messages this short, so that a deadlock without buffering is not seen.", "anchors": ["src/libmrc/src/mrc_domain_simple.c:18-39", "src/libmrc/src/mrc_domain_simple.c:44-109", "src/libmrc/src/mrc_domain_simple.c:125-164", "src/libmrc/src/mrc_domain_simple.c:196-212"]}
{"id": "C78", "title": "Coordinates of cells and nodes are those of the grid", "statement": "Every patch is given the coordinates of its cells and nodes, ghost points included: for uniform coordinates evenly spaced ones, the first node of the domain at its lower and the last at its upper corner, also for nodes that are extrapolated; patches beside each other agree on the nodes both hold; for any increasing coordinates every cell is between its nodes. The spacing found from the cells is that of the grid, and the nodes written to a file are those of the patch.", "quantifier": "all corners and units, all numbers of cells, ghost points and patches, all generators of increasing coordinates; exact arithmetic", "why_tests_cant": "Tests use grids of many cells with ghost points, where no end is extrapolated from a point that is not there.", "anchors": ["src/libmrc/src/mrc_crds.c:138-144", "src/libmrc/src/mrc_crds.c:200-281", "src/libmrc/src/mrc_crds_gen_uniform.c:15-24", "src/libmrc/src/mrc_io_xdmf.c:750-778"]}
