{
 "claims": [
  {
   "property": "C01",
   "status": "proved",
   "theorems": [
    "C01_ownership",
    "C01_no_owner_beyond"
   ],
   "note": "Integers are unbounded Z. Prescribed counts must be non-negative and add up to the number of patches; the code checks neither."
  },
  {
   "property": "C02",
   "status": "proved",
   "theorems": [
    "C02_tiling",
    "C02_accepts"
   ],
   "note": "np > 0 in each direction. Covers libmrc patch boxes; the Grid_ copy of off/ldims is C17."
  },
  {
   "property": "C03",
   "status": "proved",
   "theorems": [
    "C03_bydim",
    "C03_morton"
   ],
   "note": ""
  },
  {
   "property": "C04",
   "status": "proved",
   "theorems": [
    "C04_hilbert_core",
    "C04_hilbert",
    "C04_hilbert_accepts",
    "C04_hilbert_accepts_2d"
   ],
   "note": "Proved for any patch grid (power of two or not) for which the total number of curve bits is at most 30, beyond which the set-up shift overflows an int."
  },
  {
   "property": "C05",
   "status": "proved",
   "theorems": [
    "C05_neighbours"
   ],
   "note": ""
  },
  {
   "property": "C06",
   "status": "proved",
   "theorems": [
    "C06_best_mapping",
    "C06_best_mapping_float",
    "C06_loads_positive",
    "C06_find_best_mapping"
   ],
   "note": "Exact arithmetic, and any binary floating-point format with loads not tiny and at most 2^(prec-2) processes."
  },
  {
   "property": "C07",
   "status": "partial",
   "theorems": [
    "C07_all_zero_fails",
    "C07_some_zero_loads_refuted",
    "C07_zero_loads_partial"
   ],
   "note": "REFUTED for load vectors ending in zeros (read past the array); holds if the last load is positive."
  },
  {
   "property": "C08",
   "status": "proved",
   "theorems": [
    "C08_fields",
    "C08_particle_numbers",
    "C08_particles",
    "C08_initial",
    "C08_phases"
   ],
   "note": "MPI modelled as reliable and FIFO per (source, destination, tag). Patch data are opaque values."
  },
  {
   "property": "C09",
   "status": "proved",
   "theorems": [
    "C09_layout"
   ],
   "note": "For filling and adding; any ghost width.  qsort/bsearch are represented by the look-up of the (unique) key."
  },
  {
   "property": "C10",
   "status": "proved",
   "theorems": [
    "C10_fill",
    "C10_owner_unique",
    "C10_thin_refuted"
   ],
   "note": "For ghost layers not wider than the patch, as the property says; C10_thin_refuted shows that this cannot be dropped (nothing in the code checks it)."
  },
  {
   "property": "C11",
   "status": "proved",
   "theorems": [
    "C11_add"
   ],
   "note": "Exact real addition; ghost layers not wider than the patch."
  },
  {
   "property": "C12",
   "status": "proved",
   "theorems": [
    "C12_cell_index"
   ],
   "note": "Patches with fewer than 2^31 cells; 32-bit int arithmetic and unsigned conversion modelled."
  },
  {
   "property": "C13",
   "status": "proved",
   "theorems": [
    "C13_conserved",
    "C13_removed"
   ],
   "note": "Whatever the arithmetic of positions (rounding is a parameter). A run which hits an assertion is not covered (see C14)."
  },
  {
   "property": "C14",
   "status": "partial",
   "theorems": [
    "C14_partial",
    "C14_consistent",
    "C14_refuted"
   ],
   "note": "REFUTED: in double precision, on a grid as the code sets it up, rounding of the patch size makes an assertion fail (witness: domain of length 1, 10 cells, last of five patches). Proved for any precision of at least 24 bits when size, spacing and cell count fit together (float_geom), up to 15/16 of a patch width outside; overflow excluded."
  },
  {
   "property": "C15",
   "status": "proved",
   "theorems": [
    "C15_exact",
    "C15_reflecting",
    "C15_speed"
   ],
   "note": "Position: real arithmetic; speed: any arithmetic. A particle exactly on an upper reflecting wall is put at (1 - 1e-6) times the patch size."
  },
  {
   "property": "C16",
   "status": "proved",
   "theorems": [
    "C16_delivery",
    "C16_sources",
    "C16_conserved"
   ],
   "note": "Every order of arrival of the messages. Buffers in directions without neighbour must be empty for nothing to be lost (C16_conserved); see DESIGN."
  },
  {
   "property": "C17",
   "status": "proved",
   "theorems": [
    "C17_positions"
   ],
   "note": "Real arithmetic."
  },
  {
   "property": "C18",
   "status": "proved",
   "theorems": [
    "C18_ids_unique",
    "C18_overflow"
   ],
   "note": "Runs without rebalancing (see C50); 64-bit wrap-around modelled and collisions after overflow characterised."
  },
  {
   "property": "C19",
   "status": "proved",
   "theorems": [
    "C19_sort"
   ],
   "note": "All particles in the patch (otherwise validCellIndex asserts). Counters unbounded."
  },
  {
   "property": "C20",
   "status": "proved",
   "theorems": [
    "C20_sorts_equal"
   ],
   "note": "Equality of results on all inputs, failures included; absence of out-of-bounds accesses follows with C19_sort."
  },
  {
   "property": "C21",
   "status": "proved",
   "theorems": [
    "C21_offsets",
    "C21_collisions",
    "C21_after_sort"
   ],
   "note": "std::shuffle is an arbitrary permutation per cell; the physics of one collision is C22."
  },
  {
   "property": "C22",
   "status": "proved",
   "theorems": [
    "C22_conserved",
    "C22_neutral",
    "C22_patch"
   ],
   "note": "Real arithmetic, positive masses and collision parameter; C22_patch: all collisions of a patch together. The code itself assumes equal weights in a cell."
  },
  {
   "property": "C23",
   "status": "proved",
   "theorems": [
    "C23_weights",
    "C23_nonnegative",
    "C23_local",
    "C23_sum",
    "C23_particles"
   ],
   "note": "Real arithmetic. The code has first and second order deposition for xyz and yz only."
  },
  {
   "property": "C24",
   "status": "partial",
   "theorems": [
    "C24_split_xyz",
    "C24_zigzag_xyz",
    "C24_var1",
    "C24_2d",
    "C24_split_partial",
    "C24_zigzag_partial",
    "C24_invariant_refuted",
    "C24_with_deposition",
    "C24_in_bounds"
   ],
   "note": "REFUTED for the Split and Zigzag variants in xz and yz when the displacement in the invariant direction is half a cell or more; proved in xyz, for the yz variants Var1 and 2d at any velocity, and otherwise for slower particles. Real arithmetic."
  },
  {
   "property": "C25",
   "status": "proved",
   "theorems": [
    "C25_conserves",
    "C25_with_deposition"
   ],
   "note": "Real arithmetic. 1st order for xz and yz, 2nd order for all but dim_x, as in the code."
  },
  {
   "property": "C26",
   "status": "proved",
   "theorems": [
    "C26_linear",
    "C26_linear_exact",
    "C26_constant",
    "C26_stencil"
   ],
   "note": "Real arithmetic; every specialization present in interpolate.hxx."
  },
  {
   "property": "C27",
   "status": "proved",
   "theorems": [
    "C27_boris",
    "C27_energy",
    "C27_magnetic",
    "C27_electric"
   ],
   "note": "Real arithmetic; the update is also shown to be the unique solution of the implicit Boris equation."
  },
  {
   "property": "C28",
   "status": "proved",
   "theorems": [
    "C28_speed",
    "C28_velocity",
    "C28_step",
    "C28_distance"
   ],
   "note": "Real arithmetic."
  },
  {
   "property": "C29",
   "status": "proved",
   "theorems": [
    "C29_one_push",
    "C29_faraday",
    "C29_run"
   ],
   "note": "Real arithmetic; one patch with any ghost values, and runs on periodic domains of many patches with refreshed ghost points."
  },
  {
   "property": "C30",
   "status": "proved",
   "theorems": [
    "C30_one_push",
    "C30_ampere",
    "C30_run",
    "C30_gauss",
    "C30_continuity",
    "C30_progress",
    "C30_checks"
   ],
   "note": "The whole step of all processes, any decomposition and number of steps, every deposition scheme, sorting and collisions in between; periodic domain, exact arithmetic, at least two ghost layers, dt < dx (split and zigzag schemes in yz: dt <= dx/2 also in x, see C24). C30_progress: the step can always be made. Without rebalancing, injection, external currents and Marder correction."
  },
  {
   "property": "C31",
   "status": "proved",
   "theorems": [
    "C31_diffusion",
    "C31_no_defect",
    "C31_conserved_bounded",
    "C31_cuda_refuted"
   ],
   "note": "Periodic domains, real arithmetic; the zeroing of the residual at walls is not modelled. The CUDA variant is refuted (x component reads the y neighbour)."
  },
  {
   "property": "C32",
   "status": "partial",
   "theorems": [
    "C32_E_partial",
    "C32_H_partial",
    "C32_J_partial",
    "C32_J_fold_partial",
    "C32_parity_refuted",
    "C32_J_second_layer_refuted",
    "C32_corner_refuted",
    "C32_x_refuted"
   ],
   "note": "REFUTED as stated: the parities which the code imposes are the opposite of those of a conductor, only the first layer beyond the wall is treated (current in the second stays), the lower y wall omits one row of H, walls in x assert. Proved: tangential E is zero at the wall, the parities which the code does impose at every wall and position (also at edges), that first-layer current is folded, and that nothing else changes."
  },
  {
   "property": "C33",
   "status": "partial",
   "theorems": [
    "C33_partial",
    "C33_ghosts",
    "C33_current_refuted",
    "C33_patch_refuted",
    "C33_position_refuted",
    "C33_index_refuted"
   ],
   "note": "REFUTED as stated: in the second polarization the term of the current has the wrong sign; the pulse is always that of patch 0; at the upper side it is evaluated one cell too early; H is read outside of the storage. Proved: the one-way relation with these deviations made explicit, for all directions, both sides, all fields; every ghost point of E beyond an open boundary gets the background value."
  },
  {
   "property": "C34",
   "status": "partial",
   "theorems": [
    "C34_means_partial",
    "C34_windows",
    "C34_step0_refuted",
    "C34_step0_fails"
   ],
   "note": "REFUTED at step 0 (null accumulator used when the plain output is on and step 0 is not sampled); proved for all runs that start later, or without plain output, or with step 0 sampled."
  },
  {
   "property": "C35",
   "status": "partial",
   "theorems": [
    "C35_disabled_refuted",
    "C35_zero_interval_faults",
    "C35_disabled_partial"
   ],
   "note": "REFUTED: interval 0 divides by zero for averaged fields, ascii particle output and status line; negative intervals (and 0 elsewhere) are inert."
  },
  {
   "property": "C36",
   "status": "proved",
   "theorems": [
    "C36_checkpoints",
    "C36_restart",
    "C36_crash"
   ],
   "note": "Steps of the checkpoints; writing and reading of their content is C37."
  },
  {
   "property": "C37",
   "status": "partial",
   "theorems": [
    "C37_restart_partial",
    "C37_no_patches_refuted",
    "C37_spacing_refuted"
   ],
   "note": "Proved for every distribution with at least one patch per process, any order of the writes, any population; includes patches and fields. REFUTED for processes without patches (an assertion fails on writing). Finding: dx_ of a patch is not restored."
  },
  {
   "property": "C38",
   "status": "partial",
   "theorems": [
    "C38_range_refuted",
    "C38_empty_ranges",
    "C38_range_partial",
    "C38_nested_loops"
   ],
   "note": "REFUTED for ranges with an empty direction (the loop body runs at least once); holds for non-empty ranges."
  },
  {
   "property": "C39",
   "status": "proved",
   "theorems": [
    "C39_storage",
    "C39_views",
    "C39_aos",
    "C39_flatten_index"
   ],
   "note": "gtensor (outside the repository) taken as column-major; positions unbounded."
  },
  {
   "property": "C40",
   "status": "partial",
   "theorems": [
    "C40_bounds_refuted",
    "C40_in_bounds_iff",
    "C40_check_insufficient",
    "C40_count_refuted",
    "C40_fill_refuted",
    "C40_bitfield_partial"
   ],
   "note": "REFUTED: more than 32 bits are accessed out of bounds, bit 31 and fill falsify the count; holds for at most 31 bits."
  },
  {
   "property": "C41",
   "status": "proved",
   "theorems": [
    "C41_bintree",
    "C41_patch_map"
   ],
   "note": "Heap model with node indices."
  },
  {
   "property": "C42",
   "status": "partial",
   "theorems": [
    "C42_sample_partial",
    "C42_get_partial",
    "C42_support_ends",
    "C42_zero_refuted",
    "C42_support_refuted"
   ],
   "note": "REFUTED for u = 0 (cdf[-1] is read) and for supports which do not contain 0 (the search ends with xmin > xmax). Proved for all other u and distributions: samples exist, lie in the table, on the broken line, monotone in u; the ends of the table are quantiles for the tolerance, to 1/1024 of the support."
  },
  {
   "property": "C43",
   "status": "partial",
   "theorems": [
    "C43_density",
    "C43_counts",
    "C43_succeeds",
    "C43_neutral_partial",
    "C43_neutral_refuted"
   ],
   "note": "Density and counts proved. Neutrality REFUTED in general (ions of charge 3 for ten electrons; real weights with a prescribed density of the neutralizing population), proved for weights 1 when its charge number divides the others and is opposite. Real arithmetic."
  },
  {
   "property": "C44",
   "status": "partial",
   "theorems": [
    "C44_estimate_partial",
    "C44_estimate_refuted"
   ],
   "note": "REFUTED when the neutralizing population comes out with a negative number; proved otherwise, for fewer than 2^32 particles per patch."
  },
  {
   "property": "C45",
   "status": "partial",
   "theorems": [
    "C45_lines",
    "C45_lookup",
    "C45_bool",
    "C45_int_partial",
    "C45_trailing_refuted",
    "C45_range_refuted",
    "C45_guards"
   ],
   "note": "REFUTED for malformed integers: text after an integer is ignored, and integers beyond int end in an uncaught exception. Proved for look-up, strings, booleans, and well-formed integers. Floating-point values are not modelled."
  },
  {
   "property": "C46",
   "status": "proved",
   "theorems": [
    "C46_courant",
    "C46_stable",
    "C46_sharp",
    "C46_no_dimension"
   ],
   "note": "Real arithmetic."
  },
  {
   "property": "C47",
   "status": "proved",
   "theorems": [
    "C47_schedule",
    "C47_sequence",
    "C47_order",
    "C47_stats_every_zero"
   ],
   "note": "Operations as events; stats_every nonzero (psc.hxx:289 divides by it)."
  },
  {
   "property": "C48",
   "status": "proved",
   "theorems": [
    "C48_fold",
    "C48_total",
    "C48_moments",
    "C48_thin_refuted"
   ],
   "note": "Exact addition; where there is a wall the ghost layers must not be wider than the patch (by one more point for nodes), C48_thin_refuted shows why; C48_moments combines with the deposition of C23."
  },
  {
   "property": "C49",
   "status": "partial",
   "theorems": [
    "C49_particles_partial",
    "C49_particles_distribution",
    "C49_neutral_refuted",
    "C49_fields_fault_refuted",
    "C49_fields_refuted",
    "C49_fields_partial"
   ],
   "note": "REFUTED for fields: the slices of DiagEnergiesField start at the wrong end, so that other points are read, and memory beyond the storage. REFUTED for neutral particles (assertion). Proved for charged particles, and for fields with the slices used elsewhere in the code. Exact arithmetic."
  },
  {
   "property": "C50",
   "status": "partial",
   "theorems": [
    "C50_ids_after_rebalance_refuted",
    "C50_repeats",
    "C50_ids_unique_partial"
   ],
   "note": "REFUTED: rebalancing recreates the id generator."
  },
  {
   "property": "C51",
   "status": "partial",
   "theorems": [
    "C51_fresh_partial",
    "C51_marder_refuted",
    "C51_marder_stale"
   ],
   "note": "REFUTED for Marder correction with non-periodic walls: wall ghost points of E stay stale; proved otherwise."
  },
  {
   "property": "C52",
   "status": "partial",
   "theorems": [
    "C52_first_order",
    "C52_second_order_partial",
    "C52_second_order_refuted",
    "C24_in_bounds"
   ],
   "note": "REFUTED for second order Esirkepov: a displacement of more than half a cell at an upper boundary writes to the third ghost layer. Proved for first order (Split and Zigzag in xz under the condition of C24) and for second order up to half a cell, or with three layers."
  },
  {
   "property": "C53",
   "status": "proved",
   "theorems": [
    "C53_placed",
    "C43_succeeds"
   ],
   "note": "Real arithmetic; random numbers in the half-open intervals of the generators."
  },
  {
   "property": "C54",
   "status": "partial",
   "theorems": [
    "C54_split_zigzag",
    "C54_var1",
    "C54_esirkepov",
    "C54_2d_partial",
    "C54_2d_refuted"
   ],
   "note": "Proved for Split, Zigzag, Var1 and Esirkepov. REFUTED for the out-of-plane component of Current1vb2d, whose calc_j_oop is never called. Real arithmetic."
  },
  {
   "property": "C55",
   "status": "partial",
   "theorems": [
    "C55_output_partial",
    "C55_region_within_patch",
    "C55_output_refuted",
    "C55_select_all",
    "C55_select_every_nth"
   ],
   "note": "REFUTED as stated: if the box starts within a patch of process 0, that process reads its index table with indices not relative to the box and beyond its end (C55_region_within_patch: for every such set-up). Proved for all other boxes: the file and its two tables, all decompositions, process counts, selectors, message orders. HDF5 itself and overflow of int are not modelled."
  },
  {
   "property": "C56",
   "status": "partial",
   "theorems": [
    "C56_inject_partial",
    "C56_fast_draw",
    "C56_inject_refuted"
   ],
   "note": "REFUTED as stated: with correct_gamma, a velocity drawn that is not slower than light (the normal distribution has them) gives NaN; the test for x < 0 lets NaN pass and an assert of the injector fails (C56_fast_draw: always). Proved for all other draws: exactly the arriving particles, all in the first row, current conserves charge, writes within the ghost points."
  },
  {
   "property": "C57",
   "status": "proved",
   "theorems": [
    "C57_moments",
    "C57_rho",
    "C57_succeeds",
    "C57_decomposition",
    "C57_within",
    "C57_neutral"
   ],
   "note": "Kinds without charge have no moments (C57_neutral: their weight is computed as qni_wni / q); the property is for charged kinds. Periodic domains; reflecting walls are C48. moment_T does not compile and is not modelled. Exact arithmetic."
  },
  {
   "property": "C58",
   "status": "partial",
   "theorems": [
    "C58_run",
    "C58_schedule",
    "C58_last_particle_refuted",
    "C58_receive_repair_refuted"
   ],
   "note": "REFUTED for a process that loses its last particle (C58_last_particle_refuted) and for received particles that checkInPatchMod is to repair (C58_receive_repair_refuted: the repair is made to a copy). C58_run proves the property for all other runs, of any length, C58_schedule that the order in which a kernel's threads store does not matter. What the push does to a particle is a parameter; floor(x * dxi) is taken as given; patches are made of whole blocks, which nothing checks."
  },
  {
   "property": "C59",
   "status": "partial",
   "theorems": [
    "C59_current_partial",
    "C59_current_piles_up",
    "C59_current_refuted"
   ],
   "note": "REFUTED: push_mprts returns before zero_currents when the process has no particles (C59_current_refuted); contributions of neighbours then add up from step to step (C59_current_piles_up). With particles it holds (C59_current_partial). One value of the current, in exact arithmetic."
  },
  {
   "property": "C60",
   "status": "partial",
   "theorems": [
    "C60_split_xyz",
    "C60_split_partial",
    "C60_var1",
    "C60_2d_partial",
    "C60_same"
   ],
   "note": "Proved for Split (in two dimensions for displacements below half a cell in the invariant direction, see C24), Var1, and the in-plane components of 2d. Missing: the out-of-plane component of Current1vb2d, which is never deposited (C54_2d_refuted). Zigzag takes another path by design and is not claimed. Real arithmetic."
  },
  {
   "property": "C61",
   "status": "partial",
   "theorems": [
    "C61_continuity_yz",
    "C61_xyz",
    "C61_yz_partial",
    "C61_total_yz",
    "C61_2d_midpoint",
    "C61_near_block",
    "C61_jx_refuted"
   ],
   "note": "Proved in three dimensions (the loop ends after at most four iterations) and for the in-plane components in yz. REFUTED for the x component of DEPOSIT_VB_3D in yz: two of the four correction terms have the wrong sign. Real arithmetic, one thread; shared memory is not part of this."
  },
  {
   "property": "C62",
   "status": "partial",
   "theorems": [
    "C62_simple",
    "C62_simple2",
    "C62_q",
    "C62_threads",
    "C62_simple_yz_partial",
    "C62_simple_yz_refuted"
   ],
   "note": "REFUTED for BlockSimple<BS, dim_yz> (used by the moments on the GPU): bid is computed with b_mx[2] for b_mx[1] (cuda_mparticles_indexer.h:408), so with different numbers of blocks along y and z blocks are left out, counted to another patch, or the offsets read beyond their end. Proved for BlockSimple in xyz, BlockSimple2 (both), BlockQ in yz (also with odd numbers of blocks), and for the threads within a block. The generic BlockQ is never instantiated and not modelled."
  },
  {
   "property": "C63",
   "status": "proved",
   "theorems": [
    "C63_shared",
    "C63_global"
   ],
   "note": "All interleavings: shared memory with atomic adds, the unsynchronised read-modify-write of add_to_fld by all blocks of a launch, and the four launches of BlockQ (yz); atomic adds to global memory (xyz). Hypotheses: block sizes at least 3 along y and z with (BSy+3)(BSz+3) <= 512 (both hold for BS144), at least one particle (see C59), no particle moves further than a cell. Real arithmetic: the order of atomic adds does not matter. In yz the x component is the sum of the particles' but not the average (C61_jx_refuted). The push of the momentum is a parameter (vel)."
  },
  {
   "property": "C64",
   "status": "proved",
   "theorems": [
    "C64_collisions",
    "C64_conserved",
    "C64_strength",
    "C64_runs",
    "C64_none"
   ],
   "note": "All draws in (0,1], all sorts by key, all interleavings of the pairs' reads and stores. Real arithmetic. The random number generator is a parameter; k_collide is one read and one store per pair."
  },
  {
   "property": "C65",
   "status": "partial",
   "theorems": [
    "C65_process_partial",
    "C65_item_partial",
    "C65_values_partial",
    "C65_item_refuted"
   ],
   "note": "REFUTED in y and z when a patch has different numbers of blocks along y and z: BlockSimple<BS, dim_yz> leaves blocks out (C62), so their particles are missing from the output (C65_item_refuted: the total charge is 0 instead of -1). Proved for three dimensions, and in y and z for as many blocks along y as along z; for at most four kinds (MAX_N_KINDS, asserted). The adding of ghost points after the kernel is that of C11, which C66 proves of the GPU code. Real arithmetic."
  },
  {
   "property": "C66",
   "status": "proved",
   "theorems": [
    "C66_fill",
    "C66_add",
    "C66_kept",
    "C66_key_refuted"
   ],
   "note": "All domains, messages in any order, stores and atomic additions in any order. Adding in real arithmetic. C66_kept is for fields of at most 99 components; beyond, two ranges can have the same key and a call uses the wrong lists (C66_key_refuted, 102 components; the largest field in use has 52). The pattern itself is that of C09."
  },
  {
   "property": "C67",
   "status": "proved",
   "theorems": [
    "C67_cache",
    "C67_push",
    "C67_step"
   ],
   "note": "All orders of threads, blocks and stores, any former contents of shared memory, every store reached by a run of C58. Hypotheses: two ghost points (none needed along x in yz), in yz blocks of one cell along x (static_assert), at most four kinds (MAX_N_KINDS, asserted), dt at most the size of a cell. Real arithmetic. The current of the same kernel is C61 and C63."
  },
  {
   "property": "C68",
   "status": "proved",
   "theorems": [
    "C68_push_yz",
    "C68_push_xyz",
    "C68_marder",
    "C68_runs"
   ],
   "note": "All orders of elements and statements, all accesses checked against the shape. Hypotheses: as many ghost points as the code asserts for E (it asserts nothing for H, which needs the same), x the only invariant direction in yz. The Marder kernel in three dimensions is shown to compute marder_correct_cuda, which C31 proves to differ from the CPU (wrong difference for Ex); so Marder is claimed for y and z only. Real arithmetic (the code rounds the coefficients to float)."
  },
  {
   "property": "C69",
   "status": "proved",
   "theorems": [
    "C69_rate",
    "C69_seam",
    "C69_cpu",
    "C69_gpu"
   ],
   "note": "Hypotheses: fewer than ten kinds (asserted), all of them with temperatures (fac is not set for others), temperatures not negative, positive mass and thickness; on the GPU at most four kinds (asserted) and a grid the CUDA code is made for (geom_ok). On the CPU termination of the loop that draws is a hypothesis (some round is accepted). That the normals are normal is not claimed: they are parameters on the GPU and given by the formula of Box and Muller on the CPU. Real arithmetic but for the rounding of random()."
  },
  {
   "property": "C70",
   "status": "proved",
   "theorems": [
    "C70_gauss",
    "C70_continuity",
    "C70_push",
    "C70_progress"
   ],
   "note": "The GPU push as a whole: C61 (entries of one particle) and C63 (what the kernels leave) put into the model of the time step of C30. Exchange of ghost points and field updates are those of the CPU, which the GPU ones equal (C66, C68). Processes without particles are excluded: there the current of the step before stays (C59)."
  },
  {
   "property": "C71",
   "status": "proved",
   "theorems": [
    "C71_setup",
    "C71_scalar",
    "C71_ghosts",
    "C71_start",
    "C71_div",
    "C71_gauss"
   ],
   "note": "Hypotheses: the domain is one the code sets up, with n ghost points in all directions of more than one cell and none in the others (as all cases have it; with unequal numbers the loop runs outside of the arrays). C71_start, C71_div and C71_gauss are for periodic domains as in C30. Exact positions, but C71_start holds for any rounding. The values of the function and their sums are real numbers."
  },
  {
   "property": "C72",
   "status": "partial",
   "theorems": [
    "C72_doubles_refuted",
    "C72_doubles_partial"
   ],
   "note": "REFUTED: with six cells on a length of one from -1/2 on, in three patches, the middle of the domain is at 0 as seen from the first patch and at -2^-55 as seen from the second, and a function that jumps there has values 1 and -1. Harmless in a run: pre_first_step fills the ghost points from their owners (C71_start). Proved: when spacing and corner are suitable multiples of a power of two no position is rounded and the patches agree."
  },
  {
   "property": "C73",
   "status": "proved",
   "theorems": [
    "C73_row",
    "C73_interpolated",
    "C73_line",
    "C73_rows",
    "C73_hole"
   ],
   "note": "Hypotheses as in the quantifier: two rows, and the quotient val / (x1 - x0) fits into an int (C74 shows what happens otherwise). The columns asked for exist. Infinities and NaN are not modelled."
  },
  {
   "property": "C74",
   "status": "partial",
   "theorems": [
    "C74_read_partial",
    "C74_refused",
    "C74_missing_column_refuted",
    "C74_missing_file_refuted",
    "C74_one_row_refuted",
    "C74_guess_refuted",
    "C74_blank_refuted"
   ],
   "note": "REFUTED: a column that is not there is read as the first one and added to the header (operator[] of the map); a file that cannot be opened gives an empty table without an error, and looking up in it accesses a vector outside; so does a table of one row; the guess of the row is converted to int even if it does not fit, which is undefined; rows after an empty line are dropped silently. Proved: a well-formed file of words separated by tabs, with lines ended in any mixture of the three ways and the last perhaps not at all, is read as written; one with a row of another number of words, or a word that is no number, is refused. std::stod is a parameter."
  },
  {
   "property": "C75",
   "status": "proved",
   "theorems": [
    "C75_cdf",
    "C75_increasing",
    "C75_potential",
    "C75_momentum",
    "C75_coord"
   ],
   "note": "Exact arithmetic. The error function is a parameter: any function whose derivative is a multiple of exp(-x^2) and that goes from -1 to 1 (one such is constructed for the example). h0 < 1 is not checked by the code."
  },
  {
   "property": "C76",
   "status": "partial",
   "theorems": [
    "C76_spike",
    "C76_box_partial",
    "C76_given",
    "C76_negative_refuted",
    "C76_patches",
    "C76_thin",
    "C76_patches_refuted"
   ],
   "note": "REFUTED: for a negative field the radius of the spike comes out negative and the box is that of the hole alone; fewer cells than cells per patch give 0 patches (y and z), and the program ends in a division by zero; cells that are no multiple give patches of another size without a message. Proved: the formula solves the cubic for all positive fields and is where the mean of v_phi_cdf reaches 4.5, the box reaches beyond, multiples are cut as asked for, and a thin third dimension gets one patch. Exact arithmetic."
  },
  {
   "property": "C77",
   "status": "partial",
   "theorems": [
    "C77_offsets",
    "C77_progress",
    "C77_ends",
    "C77_completes",
    "C77_tiles",
    "C77_accepts",
    "C77_info_partial",
    "C77_info_refuted",
    "C77_neighbors"
   ],
   "note": "REFUTED in one part: if processes are given different numbers of cells (lm), get_global_patch_info and get_local_patch_info tell gdims / np cells and an offset to match, which are not those of the patch. Proved: everything else, and the information on patches for equal numbers of cells. A message is kept in the model after it has been received (it cannot be received twice). MPI itself, mrc_io and the ddc are not part of it."
  },
  {
   "property": "C78",
   "status": "partial",
   "theorems": [
    "C78_uniform_partial",
    "C78_thin_refuted",
    "C78_shared",
    "C78_interleaved",
    "C78_spacing",
    "C78_file_partial",
    "C78_file_refuted"
   ],
   "note": "REFUTED in two parts: in a direction of one cell without ghost points (sw = 0, the default) both ends are extrapolated from cells that are not there, so that the set-up reads outside of the array; and nodes of a patch of one cell are written to a file with bnd = sw = 0 from cells that are not there. Proved: everything for at least two stored points, so in particular for the two ghost points that psc asks for (mrc_domain.hxx:41). Exact arithmetic; the float copies of the coordinates, and reading and writing objects, are not part of it."
  }
 ]
}
