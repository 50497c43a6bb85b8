# Design of the formal model of psc (particle-in-cell code)

Source: `/repo/src` (psc-code/psc), read as text only.  Model and proofs: `rocq/theories/`, Coq 8.16.1.

## Layout

Every area has a `*Model.v` (Gallina functions, each with a comment citing the
file and lines it models), `*Spec.v` or a specification section (independent
statement vocabulary), `*Proofs.v` (lemmas) and `*Props.v` (only the property
theorems, each closed by `exact lemma`, followed by `Print Assumptions`, and an
`Example` showing that a concrete non-trivial case satisfies the hypotheses).

## Numbers

* Integers (indices, counts, steps) are `Z` or `nat`; where wrap-around matters
  (unsigned comparison in the cell-index check, id overflow, 32-bit bit fields)
  the wrap is written into the model.
* Physics identities are stated in exact real arithmetic (`R`).  Rounding is
  not modelled there; this is said in the claim's note.
* The particle boundary code is modelled with IEEE rounding
  (Flocq `round radix2 (FLT_exp emin prec) ZnearestE`, any precision) because
  the property is about rounding; overflow/NaN excluded by hypotheses.
* Undefined behaviour (out-of-bounds access, division by zero, failed assert) is
  a distinct outcome (`None`/`Err`).

## Plan per property

| id | model | proof method |
|----|-------|--------------|
| C01 | offsets array from counts, linear search `gpatch_to_rank_patch`, default split | induction over counts; uniqueness from monotone prefix sums |
| C02 | `off = patch idx * ldims`, box | division/modulo uniqueness |
| C03 | `bydim` index arithmetic, Morton bit loops as in the C code | div/mod; induction on bit position |
| C04 | Hilbert `i2c`/`c2i` with bitTranspose, rotations | invariants on the loop state; bijection by an inverse state machine |
| C05 | neighbour lookup with wrap | case analysis per direction |
| C06, C07 | `best_mapping_recursive` on real loads, out-of-bounds read = `None` | induction on number of processes; refutation by witness for zero loads |
| C08 | rebalancing as message passing: per-rank send lists by patch order, tags, recv lists | refinement to a global map patch -> data; independence of delivery order |
| C09 | `setup_pattern2` entry lists for all ranks | list reasoning on filter/sort |
| C10, C11 | regions inside/outside; run = pack, deliver, unpack | pointwise characterisation of the resulting function; sums over finite boxes |
| C12 | cell index, unsigned cast mod 2^32 | div/mod |
| C13-C17 | `process_patch`, `ddc_particles::comm` | induction over the buffer; Flocq for C14 |
| C18 | per-rank counters | div/mod; induction over interleavings |
| C19, C20 | both counting sorts with arrays, out-of-bounds = error | loop invariants; refinement to stable filter-concat |
| C21 | offsets, shuffle as arbitrary permutation, pairing loops | induction |
| C22 | binary collision algebra in R | field/nsatz style algebra with sqrt facts |
| C23-C26 | deposition, current, interpolation in R | per-branch algebra; deltas on grid indices |
| C27, C28 | Boris push in R | algebra, sqrt bounds |
| C29-C31 | Yee updates and Marder on infinite/periodic grids | ring; induction on steps |
| C32, C33 | boundary conditions | pointwise algebra; sign error refutation |
| C34-C36, C47 | schedules as state machines | induction over histories |
| C37 | offsets via prefix sums over ranks | list append/firstn/skipn |
| C38 | iterator step function on vectors | induction over dimension |
| C39 | strides | mixed-radix injectivity |
| C40 | words of 64 bit, code's 32-bit indexing | refutations by witness; partial correctness |
| C41 | tree insertion/lookup | induction on fuel/array |
| C42 | tabulated inverse CDF | induction; refutation for u = 0 |
| C43, C44 | cellwise loops | induction over kinds/cells |
| C45 | word-level parser over lists of strings | induction over lines |
| C46 | courant length | algebra |
| C48 | reflecting fold | sums |
| C49 | sums over patches/cells | permutation invariance |

## Trusted base

Coq 8.16.1 kernel; the axioms printed by `Print Assumptions` under each theorem
(recorded per claim in the section "Assumptions" below as files are finished);
faithfulness of the reading of the source (no code is executed here).

Not modelled anywhere: the CUDA runtime and thrust (its sort, scans and searches are taken as specified), VPIC bindings, HDF5/ADIOS2 libraries, MPI
itself (it is taken as reliable, per-pair/per-tag FIFO message passing),
memory allocation failure.

## Findings (differences between the code and the properties)

Each is either a `_refuted` theorem (named in MANIFEST.json) or a note.

* C07: `best_mapping` reads past the end of the load array when the loads at
  the end of the curve are zero (`C07_all_zero_fails`,
  `C07_some_zero_loads_refuted`): no particles there and `factor_fields = 0`.
* C01: prescribed patch counts are checked neither for sign nor for their sum
  (hypothesis `counts_valid`); the number of processes must not exceed the
  number of patches for the balancer (asserted).
* C38: `VecRange` runs its loop body at least once, also when a direction is
  empty (`C38_range_refuted`, `C38_empty_ranges`).
* C40: `bitfield3d` allocates 64-bit words but indexes them as 32-bit words:
  exactly the fields of at most 32 bits stay in bounds (`C40_in_bounds_iff`); its
  assert is off by one (`C40_check_insufficient`); bit 31 is sign-extended
  (`C40_count_refuted`); `fill` sets the padding too (`C40_fill_refuted`).  Also:
  `bitfield3d_compare` returns 1 when the fields differ, while the header says
  nonzero if equal.
* C50: rebalancing constructs new particle storage and so a new id generator
  starting at 0, and a checkpoint does not contain the generator: ids repeat
  (`C50_ids_after_rebalance_refuted`).
* C34/C35: `OutputTfieldItemParams::do_accum` divides by `out_interval` before
  it looks at `enabled()`: the default 0 is a division by zero
  (`C35_zero_interval_faults`); at step 0 a mean may be written from a null
  accumulator (`C34_step0_fails`).  `output_particles_ascii` with interval 0
  and `stats_every = 0` also compute `% 0` (`C35_disabled_refuted`).
* C51: the Marder correction changes E and refreshes the ghost points at patch
  boundaries only; at walls they keep mirroring the uncorrected field when the
  particles are next pushed (`C51_marder_refuted`, `C51_marder_stale`).  What an
  operation needs is written down in `exec` of LoopSpec.v.
* C29-C31: fields are real-valued functions on patches; ghost points are taken to be
  refreshed between operations (`refreshed` in FieldSpec.v; the exchange itself is
  C09/C10) and directions with at least two ghost points (psc uses ibn = 2).
* C31: the CUDA version of the Marder correction reads the neighbour in y for the
  x component (marder_impl.hxx:101, `C31_cuda_refuted`).  The zeroing of the
  residual at non-periodic walls (marder_impl.hxx:226-253) is not modelled.  Note on it:
  its slices `_s(ibn, -ibn)` are `_s(0, 0)`, which is empty, in invariant directions
  (ibn = 0), so in two-dimensional runs with walls nothing is zeroed; with ibn = 1 the
  upper plane `_s(-1, 0)` is empty as well.

- **1vb current, Split and Zigzag, invariant direction** (`C24_invariant_refuted`). inc_curr_1vb_split.cxx
  and inc_curr_zigzag.cxx put the particle at .5 in an invariant direction and say this keeps the average position in
  cell 0. It does only if the path is not split. A particle that crosses a cell face in x or z and moves half a cell
  or more in y has the second part of its current written to index 1 in y: in dim_xz that is another element of the
  array (or past its end), and the charge is not conserved. The time step does not prevent it: the Courant length
  ignores invariant directions, and the witness has cubic cells, dt below 3/4 of the limit and |v| < 1. psc_config.hxx
  uses Split for dim_xz.
- **Zigzag, InvarZ** (note). inc_curr_zigzag.cxx:58-61 assigns to the y component in the branch for an invariant z
  direction; unused at present as no such instance exists.
- **Deposition in other dimensions** (note). Deposit1st and Deposit2nd exist for dim_yz and dim_xyz only.
- **Second order Esirkepov needs three ghost layers** (`C52_second_order_refuted`). A particle in the upper half of the
  last cell (lg = ldims) that moves to ldims + 1/2 or beyond adds to index ldims + 2, while every set-up has
  n_ghosts = 2 (largest index ldims + 1). Needs a displacement of more than half a cell, which two-dimensional runs
  with equal spacings allow from cfl = .71 on (default .75), one-dimensional ones from .5 on.
- **First order Esirkepov** (note): push_particles_esirkepov.hxx:55 declares second order checks for it, so the
  continuity check deposits with another shape function than the one proved in `C25_conserves`.
- **Boundary processing and rounding** (`C14_refuted`). process_patch computes the patch size as the difference of the
  rounded corners, the cell from gdims/length. The two can disagree: a particle may be in a valid cell in x but beyond
  the patch size. As long as it is inside in all directions nothing happens; if it leaves the patch in another
  direction, `assert(xi[d] <= patch_size[d])` fails.
- **Particles in buffers without a neighbour** (`ex_lost` in DdcPrtProps.v). DDCParticles::comm clears the buffers of
  directions whose neighbour rank is -1. process_patch fills such a buffer if a particle leaves through a side which is
  periodic for particles but not for the domain: the two are set independently, and invariant directions are
  periodic for particles and not for the domain.
- **Lower reflecting side** (note). Only particles kept in the patch get their cell checked again; one mirrored in one
  direction and sent in another is not.
- **Pusher and indexer** (note). The pusher uses 1/dx, the indexer gdims/length: the cells may differ by rounding.
- **Binary collision** (note). RngC draws from ]0,1] including 1: then log(1 - ran2) is minus infinity; the angle
  becomes pi, which is harmless, except that nudt = 0 would give nan (excluded in `C22_conserved` by nudt1 > 0).
  Weights are not used: particles of different weight would not conserve momentum (comment in collide_in_cell).
* C43: the number of particles of a neutralizing population is minus the sum of
  charge numbers of the others divided by its charge, truncated: with ions of
  charge 3, three of them are created for ten electrons
  (`C43_neutral_refuted`); and with real weights its particles get the weights
  of the density prescribed for it, whatever the others' charge.  The sum is
  kept in an `int`, so fractional charges are truncated at every addition.
* C44: that number may be negative (three populations, the last of the same
  sign as the surplus).  No particles are created then, but the estimate for
  the initial balancing subtracts it from an unsigned number
  (`C44_estimate_refuted`).
* Note (not modelled): `InitNptFunc`'s first constructor stores a lambda that
  captures the constructor's parameter by reference (`setup_particles.hxx`
  54-58); it is called after the constructor has returned, through a dangling
  reference.

- **C54 (`C54_2d_refuted`)**: `Current1vb2d::calc_j` deposits no current out of the plane. The function meant for it,
  `calc_j_oop` (inc_curr_1vb_2d.cxx:71-79), is called from nowhere in the repository. The class is not instantiated
  at present either, so no run is affected.

- **C10 (`C10_thin_refuted`)**: mrc_ddc_multi does not check that a patch is at least as wide as its ghost layers. If it is
  not, `ddc_init_inside` takes part of the box it sends from the ghost points of the sender, and the receiver gets
  outdated values. The model of the exchange (GhostModel.v) runs on all processes with messages as in MpiModel.v, and
  has the buffers of mrc_ddc_multi.c element by element, with out-of-bounds or unwritten reads as errors.

- **C42 (`C42_zero_refuted`)**: `InvertedCdf::get` with u = 0, which std::uniform_real_distribution may return, stops at
  guess_idx = 0 and accesses cdf[-1].
- **C42 (`C42_support_refuted`)**: `findPdfSupport` computes log2 of (xmax - xmin) / width from the first midpoints. If the support does not
  contain 0, the first xmax may be below the first xmin; the logarithm is NaN, the comparison with it is false, and the bisection is
  skipped. For the uniform distribution on [3.5, 3.7] the table goes from 3 down to 1.875, and each sample is outside of
  the support. `C42_sample_partial` covers the distributions with 0 in the support, up to the tolerance.
- **C45 (`C45_trailing_refuted`)**: `parse<int>` uses std::stoi without checking that the whole value was used: "1e3" is read as 1.
- **C45 (`C45_range_refuted`)**: std::stoi (stod, stof) throws std::out_of_range for values beyond the type, `get` catches
  std::invalid_argument only, so the program ends without the message that names the parameter.

### Checkpoints (C37, RestartModel.v)

Modelled: write_checkpoint/read_checkpoint with what they call: Descr<Grid>, VariableByPatch, Descr<MparticlesSimple>, VariableByParticle,
Descr<Mfields>, the selections of putVariable/getVariable.  Outside the repository and assumed: ADIOS2 variables behave as arrays over
their shape, Put writes a box, Get reads one; Puts of different processes take effect in any order.  Attributes are not modelled.

Findings:
- A process without patches cannot write a checkpoint: localPatchInfo(0) fails an assertion, and vec[0] of an empty vector is
  accessed (VariableByPatch.h:21-24).  `C37_no_patches_refuted`.
- Grid::Patch::dx_ is neither written nor recomputed (grid.inl:218-232).  Reading into a grid that has fewer patches on a process
  (e.g. default distribution, checkpoint after load balancing) leaves dx_ uninitialised.  dx_ is used by x_nc/x_cc.  `C37_spacing_refuted`.
- Not a theorem: the result of MPI_Exscan on process 0 is undefined by the MPI standard; the code relies on it staying 0
  (particles_simple.inl:21 and 33).
- Not a theorem: ForComponents<ParticleWithId> takes non-const references, and ids are not part of the components.

### Moments at reflecting walls (C48, ReflectModel.v)

Modelled: the four add_ghosts_reflecting functions and maybe_add_ghosts_boundary, with out-of-storage accesses as errors.  Combined
with the deposition of DepositModel.v (`C48_moments`).  Not modelled: several patches at once (the exchange of ghost points that
follows is C11).

- For nodes, the lowest ghost layer (at -ibn) is never folded ("unused_ghost" in the code).  By C23_local no deposition reaches it;
  `with_ghosts` in ReflectSpec.v leaves it out.
- `C48_thin_refuted`: with ghost layers wider than the patch and walls on both sides, contributions stay outside.  Nothing checks it;
  with the ghost widths in use (2) it takes a patch with one cell.

### Energy diagnostics (C49)

Modelled: `DiagEnergiesField::operator()`, `DiagEnergiesParticle::operator()` and the reduction in `DiagEnergies::write_one`
(EnergyModel.v). Not modelled: the formatting of the output file and copies between device and host. The reduction adds in
the order of the ranks; in exact arithmetic the order does not matter.

Findings:

* `src/include/DiagEnergiesField.h:30-31` takes the view `_s(-bnd, bnd)`. Everywhere else it is `_s(bnd, -bnd)`
  (for example `fields3d.hxx:497-498`). A negative start counts from the end, so the view starts at the last
  `bnd` points. The reported energies are those of other points (`C49_fields_refuted`). As soon as a patch has
  more cells in z than ghost points, the view reads beyond the storage (`C49_fields_fault_refuted`).
* `src/include/DiagEnergiesParticle.h` asserts on neutral particles (`C49_neutral_refuted`).

Assumption about a library outside of the repository: a negative start of a gtensor slice counts from the end, and
accesses to a view are not checked.

### Conducting walls (C32, WallModel.v)

psc_bnd_fields_impl.hxx without DEBUG (which fills ghosts with NaN first) is modelled statement by statement; the rows of each
loop body are executed in order, on fields with storage only where the patch has it (an access elsewhere is `None`).
Findings:

- The parities are opposite to those of a conductor: tangential E is set to zero at the wall but is *even* beyond, normal E odd,
  tangential H odd, normal H even (`C32_parity_refuted`).  They match particles which are mirrored with unchanged charge.
- Only the first layer beyond the wall is treated, so current which the second-order scheme deposits in the second
  layer stays there (`C32_J_second_layer_refuted`).
- conducting_wall_H_lo for y starts at iz = -1, all others at -2 (`C32_corner_refuted`).
- A wall in x ends in assert(0) (`C32_x_refuted`).

What holds (`C32_E_partial`, `C32_H_partial`, `C32_J_partial`, `C32_J_fold_partial`): zero tangential E at every wall, the parities
above at all positions along every wall, also where two walls meet, current of the first layer moved to its mirror image with
the sign of the mirrored velocity, and nothing else changes.  At least two cells are needed between walls.

### Radiating boundary (C33, WallModel.v)

radiative_H_lo and radiative_H_hi together with push_E.  `C33_partial` states the relation that does hold after the step of E
which follows; it holds for one open side at a time (corners of two open sides are not covered).  Findings:

- The term dt*J in the second polarization has the wrong sign (lines 579 and 628): `C33_current_refuted`.
- `real_t p = 0.0` within the loop shadows the patch index p, so that both pulses are evaluated for patch 0, at a position which
  does not include the offset of the patch: `C33_patch_refuted`.
- At the upper side the pulse is evaluated at the position one cell before the wall: `C33_position_refuted`.
- The loop covers ghost points from the lowest on, and reads H one below: `C33_index_refuted`.

### Gauss's law over a run (C30, GaussModel.v)

GaussModel.v puts the models of the parts together: one step of *all* processes is push and current deposition (any of the schemes
of C24 and C25), boundary processing and exchange of particles (C13, C16), adding and filling of ghost points of J (C10, C11), the three
field updates (C29) with their fills, in the order of psc.hxx:386-469; a run is any number of steps with sorting and
collisions in between (any permutation, any change of momenta).  The new momenta of the push are arbitrary, so that
the interpolation and Boris push need not be repeated.  `density` is what item_rho of the checks computes.

- `C30_gauss`: div E - rho at each node is the same after any run.  `C30_continuity`: d rho + dt div J = 0 in each step.
  `C30_checks`: what checks_impl.hxx reports: the error of Gauss's law does not change, that of continuity is 0.
- `C30_progress`: from every such state and for all new momenta the step can be made: nothing is written outside of the
  storage, all messages are received, no assertion fails.  So the hypotheses of the others can be met.
- Hypotheses (`periodic_run`): fully periodic domain in xyz or yz, any decomposition, at least two ghost layers not thicker than a
  patch, dt < dx in each direction (weaker than the Courant condition), exact arithmetic; for the split and zigzag schemes also
  dt <= dx/2 in the direction left out, without which C24 is refuted.
- Not in the run: rebalancing (C08 shows that it moves data unchanged), injection, external currents, Marder correction (C31).

Finding: push_particles_esirkepov.hxx:54 selects the second-order density for the checks also if the pusher is of first order
(there is a FIXME); the theorems take the order of the current.

### Moments of second rank (psc/moment.hxx:235-267)

Not modelled: the lambda of `moment_T` takes one argument where the others take two (deposit_one and prt), and calls `deposit_one`, which is
not declared there.  It could not be instantiated; nothing does.

### File of particles (C55, OutPrtModel.v)

* output_particles_hdf5_impl.hxx:689-690: process 0 fills the global index for its own patches from `idx[p](jx, jy, jz, kind, c)`, but the
  table has the extents ihi - ilo and was filled (599-603) at jx - ilo[0], jy - ilo[1], jz - ilo[2].  When the box asked for
  starts within a patch of process 0 this reads wrong entries and beyond the end of the table (`C55_region_within_patch`, `C55_output_refuted`).
  The part for other processes (722-726) subtracts ilo.  Proved for all boxes which do not start within such a patch (`C55_output_partial`).
* adjust_params (776-788) does not check lo <= hi; with lo > hi the extents of the data sets are negative.  A hypothesis of the theorem.
* The ADIOS2 variant (output_particles_adios2_impl.hxx) ignores lo and hi.  Not modelled.
* Each process has its own ParticleSelector, and a new one for each output: every n-th particle of each process is written (`C55_select_every_nth`).
* Not modelled: HDF5, conversion of numbers to single precision, chunking and the choice of collective writing.

### Checks of Gauss's law and continuity at run time

The checks compare `max_err > threshold` (and `>=`); a NaN makes the comparison false, so that a run which produces NaN passes.  Not part of the model
(real numbers); noted from reading.

### Injection at the boundary (C56, InjectModel.v)

* `vel_to_4vel` (setup_particles.hxx:38-43) divides by sqrt(1 - v²).  With `correct_gamma` (psc_shock.cxx) the velocity
  is drawn from a normal distribution, so v² >= 1 happens; the momentum is then NaN, `prt.x[1] < 0.0` (boundary_injector.hxx:133) is
  false, and the particle is injected at NaN, where the assert of injector_simple.hxx:25 fails (`C56_fast_draw`).  Without asserts the
  particle stays, and `fint` of NaN is undefined.  The same holds for the initial particles with `initial_momentum_gamma_correction`
  (setup_particles.hxx:219-221): their positions are fine but their momenta are NaN.
* At the points on the boundary itself (index 0) charge is not conserved by injection: the particles come from nowhere.  C56 says by how much: by the share
  that the imagined particle had there before.
* Not modelled: ids, tags, kinds; the Esirkepov pushers (their shape reaches further in); rounding of positions (x = xe may come out of
  `min_pos + U * pos_range`).

### Moments (C57, MomentModel.v)

Built on the models of C23 (deposition), C11 (adding ghost points) and C30 (set-up of a periodic run).  The specification gives for each component name the
quantity and the kind; the theorem finds the component by its name.  `shape_at` counts every image of the particle, so domains of
few points are included.

* Finding: `w()` is `qni_wni / q` (const_accessor_simple.hxx:61, particles_simple.hxx:230).  For a kind with q = 0 the stored product is 0 and
  the weight is lost; every moment of such a kind, its number density too, is 0/0 = NaN (`C57_neutral`).  Nothing rejects
  such kinds (`Grid_::Kind` even has q = 0 as its default).
* Not modelled: `moment_T` (see above), reflecting walls (C48), the CUDA variants, rounding.

### CUDA particle store and exchange (C58, C59, CudaPrtModel.v)

The state is the seven members of cuda_mparticles that matter (storage, alt_storage, d_idx, d_id, d_off, n_prts, need_reorder) as lists.  A kernel is the
list of its stores; `C58_schedule` shows that their order does not matter, so running them one after the other is no restriction.
The specification knows only the collection of particles with their patches; `represents` says what the arrays have to say about it.
Runs are of any length.  Along the way the push with and without reordering, `d_id` as an indirection while reordering is due, and the
gap of sent particles at the end of the arrays are all covered.

* Finding (`C58_last_particle_refuted`): a process which loses its last particle is stuck.  `post` leaves the vectors at the size they had
  (the comment there calls it evil) and relies on the next push to resize them, but `push_mprts` returns at once for `n_prts == 0`
  (cuda_push_mprts_yz.cxx:555), and so does `reorder`.  The next `prep` fails `assert(storage.size() == sz)` or `assert(n_prts == sz)`
  (cuda_bndp.h:52-53), and injecting fails `assert(storage.size() == 0)` (cuda_mparticles.cxx:262).  `clear()` does not resize `d_idx` either.
* Finding (`C58_receive_repair_refuted`): cuda_bndp.cxx:302 calls `checkInPatchMod(h_bnd[n + off].x)`, but `h_bnd[...]` is a temporary made from the
  storage, so the position put right is thrown away; `blockIndex` of the unrepaired particle is then -1 and `assert(b < n_blocks)` fails.
  The same call in inject_initial works, because there it is made on the particle that is stored.
* Finding (`C59_current_refuted`, `C59_current_piles_up`): the same early return skips `zero_currents`.  On a process without particles the current of the last
  step stays; add_ghosts adds the neighbours' contributions of every step on top (and its ghost points, filled by fill_ghosts, are added to the neighbours again).
* The code assumes, and nothing checks, that the patch is made of whole blocks; `geom_ok` says so.
* Not modelled: CUDA_BNDP_DIM_YZ_SPECIAL (not compiled), sort by cell, random sort, device memory errors.

### Current as a time average, and on the GPU (C60, C61, CudaCurrModel.v)

AvgSpec.v says what the current should be without any reference to cells crossed: the Riemann integral (Coquelicot's `is_RInt`) over the step
of charge times velocity times weight.  Each visit to one cell is shown to give the integral over that part of the step, and integrals over
adjacent parts add up; the correction h = dx dy dz / 12 of the code is what makes the integral of the bilinear weight exact.

* Finding (`C61_jx_refuted`): for dim_yz the GPU's `curr_vb_cell` has the correction with the signs + - + - (cuda_push_mprts_yz.cxx:164-175), where
  + - - + is right and is what the CPU has (inc_curr_1vb_var1.cxx:74-80).  jx at the two upper points in z is off by 2 h each, in opposite directions.
  The total (`C61_total_yz`) and, in yz, continuity (`C61_continuity_yz`) are not affected, so no check at run time sees it.  This variant is the one that is instantiated.
* The loop `for (;;)` of dim_xyz ends after at most four iterations for displacements up to one cell (`C61_xyz`): each direction is crossed at most once.
  In real arithmetic only: with floats the comparison `frac < step` after a crossing could in principle differ.
* `C60_same`: Split and Var1 deposit the same current at every point.
* Zigzag goes along another path; C24 and C54 are what it satisfies.

### Launches on the GPU and the races of its current (C62, C63, CudaLaunchModel.v)

* Modelled: the grids and `init` of BlockSimple, BlockSimple2 and BlockQ (as lists of blocks, in some order that no theorem of C63 depends on),
  `in_block_loop`, the shared memory of CurrmemShared (index, bounds, atomic adds), `add_to_fld` as loads and stores of single threads that may be interleaved in any way
  with those of all other threads of all blocks of a launch, the synchronisation of `push_mprts_ab` (all adds of a block before its `add_to_fld`) and between launches, `zero_currents`,
  and atomic adds to global memory (CurrmemGlobal).
* Not modelled: memory fences, warps, the number of blocks resident at a time; a load or store of one value is atomic.
* Finding (`C62_simple_yz_refuted`): `BlockSimple<BS, dim_yz>::init` has `bid = blockIdx.y * b_mx_[2] + blockIdx.x` (cuda_mparticles_indexer.h:408) where b_mx_[1] is meant.
  The GPU moments in yz use it (cuda_moments_1st_nc.cxx:67,104,141): with different numbers of blocks along y and z, blocks are left out, counted twice and to the wrong patch, or off_ is read beyond its end.
* `BlockQ` carries the comment "FIXME won't work if b_mx_[1,2] not even (?)": it does work (`C62_q`).
* `add_to_fld` advances its loop variable within the loop over m (cuda_currmem.hxx:69), so it is right only as long as a block with its ghost points has at most 512 points ((BSy+3)(BSz+3) <= 512).
  The adding is not atomic: the four launches make it free of races, but only for BS_y, BS_z >= 3 (hypotheses of `C63_shared`).
* Observations, not theorems: the generic `BlockQ` uses `cmprts.n_patches` without the call (line 423) and would not compile if instantiated;
  psc_balance_impl.hxx:1002 recreates the particles as `MparticlesCuda<BS444>` whatever the block size is;
  `bs_to_dim` takes BS144 for yz (cuda_mparticles_sort.hxx:34), so that a three-dimensional run with BS144 (tests/testing.hxx:88) is sorted with the numbering of yz.

### Collisions on the GPU (C64, CudaCollModel.v)

* Modelled: `cuda_mparticles_randomize_sort` (the kernel that draws the keys as stores of threads in any order, the sort by key as any sorted permutation, the offsets by lower_bound),
  the grid and the loops of `k_collide`, each pair as a read of two particles (with the assert on their cells) and a later store of two momenta, in any interleaving; the binary collision is that of C22.
  Draws are arbitrary in (0, 1] (rng_state.hxx:55-61); which generator a thread uses is not modelled.
* `C64_collisions` gives the pairs and what becomes of each particle (CudaCollSpec.v: `paired`), `C64_conserved` what a cell keeps, `C64_strength` how many pairs and how strong,
  `C64_runs` that there is a run at all (the other theorems are not vacuous).
* No difference found.  The keys are `cell + .5 * u` in double: with u <= 1 they stay below the next cell, also rounded (for all numbers of cells that fit an int).
* All particles are taken to be of the same weight (FIXME in the code).  nudt1 is computed for cells with 0 or 1 particles too (division by zero), and not used.

### Moments on the GPU (C65, CudaMomModel.v)

cuda_moments_1st_nc.cxx and the classes of fields_item_moments_1st_cuda.hxx, after the store of C58 and the launches of C62: `launch_slots` is a kernel over the particles in their blocks,
`cu_moment_runs` what may come of one process (the atomic adds in any order), `cu_item_moment` all processes. The ghost points are added after the kernel by BndCuda3, which does what
C11 says (C66). The specification is the CPU's moments (C57): `same_as` says which one.

* `C65_process_partial`: one process, added to whatever is in the field; `C65_item_partial`: all processes, same names, same values as `item_moment`; `C65_values_partial`: in terms of the particles.
* Finding: in y and z the launch leaves blocks out if a patch does not have as many of them along y as along z (C62), so particles are missing from rho, n and the other moments without an error
  (`C65_item_refuted`: two patches of 8 x 4 cells, total charge 0 instead of -1). With rho wrong, so is the check of Gauss's law on the GPU.
* Finding: CudaMoments1stN starts a timer and returns without stopping it if the process has no particles (cuda_moments_1st_nc.cxx:227-230).
* At most four kinds: DMparticlesCuda asserts it (cuda_mparticles.hxx:346).

### Ghost exchange on the GPU (C66, CudaBndModel.v)

cuda_bnd.hxx on top of the pattern of GhostModel.v: lists of positions in memory (`make_maps`), the lists kept from call to call (`cb_maps`, one CudaBnd for all users of a process), gather, messages, scatter.
Stores and atomic additions happen in any order (`ord`), messages arrive in any order.  CudaBndSpec.v says where a value is in memory (`holds`), which lists a call should use (`expected`).

* `C66_fill`, `C66_add`: the memory ends up with what the CPU code (C10, C11) makes of the field.  `C66_kept`: the lists used are always those a new call would make.
* Finding (`C66_key_refuted`): the lists are kept under the key mb + 100 me + 10000 n_comps (cuda_bnd.hxx:183), which is ambiguous from 100 components on: with 102 components, filling all of them after
  having filled number 100 alone fills only that one.  The largest field in use has 52 components (13 moments of 4 kinds).
* The key leaves out the shape and the ghost layers of the field as well, and, unlike the CPU code (psc_bnd_impl.hxx:112-113), nothing asserts that they are the grid's; all fields exchanged are made with
  `grid.ibn`, so this is an assumption of the model, not a finding.
* Clearing the lists in the balancer (psc_balance_impl.hxx:945) and by the generation counter (cuda_bnd.hxx:208-211) is redundant; either one is enough.
* Not modelled: positions beyond 32 bits, copies between host and device.

### Push on the GPU (C67, CudaFldModel.v)

The loading of the field cache (index, offset, order of points as in the code, the stores of the threads in any order onto any former contents), the reads of the interpolation with their bounds, push_part_one,
the launches and what they store.  Interpolation and push are those of C26 and C27 (the GPU includes the same headers); what differs is where the values come from, the conversion of positions, and the factor dq.

* `C67_cache`: what is in the cache.  `C67_push`: block by block, in the order of the slots, each particle is pushed as by the CPU (`pushed_by` in CudaFldSpec.v).  `C67_step`: with the exchange after it; so the
  push, a parameter in C58, is shown to be one of those C58 allows.
* No difference found, for at most four kinds: DMparticlesCuda asserts it (cuda_mparticles.hxx:346), while the CPU has no such bound.
* In yz the cache is filled at x = 0 only, and the x position is left out of the interpolation; the CPU's dim_yz does the same.
* Without reordering, the push stores in place while other blocks and later launches have still to read: `between` (CudaFldProofs.v) is the invariant that nothing still to be read is overwritten.

### Field updates on the GPU (C68, CudaPushFldModel.v)

* Modelled: push_fields_cuda_impl.cxx:38-217 and the CUDA part of marder_impl.hxx:63-148.  Right hand sides are expressions (`gexpr`), whose evaluation checks every index against the shape of the array; an assignment between
  views first checks that their shapes agree, then is one launch over all elements of all patches; a launch runs its tasks (one statement of one thread) in any order, which covers any interleaving of threads at the granularity
  of statements.  `gt_always` (CudaPushFldSpec.v) says: whatever the orders, no faulty access, and the claim holds in the end.
* Not modelled: gtensor's own code (slices, views, launches are taken by their meaning), rounding of `cnx` etc. to float, the number of components (asserted), the functions under `#if 0`.
* `C68_push_yz`, `C68_push_xyz`: equal to the CPU's `push_E`, `push_H` of FieldModel.v (which C29, C30, C51 are about) at all points with storage, ghost points included: the regions agree exactly because there are two ghost
  points.  `C68_marder`: in y and z equal to the CPU's correction; in three dimensions the kernel computes `marder_correct_cuda`, with the wrong difference for Ex, see C31.
* Observation: `push_E` asserts the number of ghost points, `push_H` does not, but would update another region than the CPU code if it were not two.

### Heating (C69, HeatModel.v)

* Modelled: heating_spot_foil.hxx:6-88, psc_heating_impl.hxx:19-72, cuda_heating.cxx:17-170 and 226-257 (the kernel over slots of blocks, the cached corners `d_xb_by_patch_`, `first_time_`, `balance_generation_cnt_`), the size of the
  array of generators (rng_state.hxx:97-130).  The conversion of random() to float is with Flocq's rounding, the rest is real arithmetic.  `hreach` are the histories: rebalancing, growth of the array of generators, calls of
  the heating.
* Not modelled: the generators themselves (what is drawn for a slot is a parameter), that random() goes on where it was left, heating spots other than the foil.
* `C69_rate`, `C69_seam`: the spot.  `C69_cpu`, `C69_gpu`: each particle gets `heated` (HeatSpec.v) with the normals drawn for it; on the GPU by slot, in the order `L` the store has.
* Random numbers on the CPU: `random() / ((float)RAND_MAX + 1)` may round to 1 (`ran_max`), of which the logarithm would be infinite; the loop draws again in that case.  Without it a normal would be infinite with probability 2^-25 each.
* Observation: exact periodicity of the rate fails slightly, since only the nearest images are summed; the difference is bounded in `C69_seam`.
* Observation: `fac` has ten elements but `n_kinds < 10` is asserted (heating_spot_foil.hxx:35), so ten kinds are refused; for a kind that is not below `n_kinds` an element is read that was never set (45), here None.
* Observation: the host version `particle_kick` (cuda_heating.cxx:177-187, used only by the `gold` function) changes the position instead of the momentum.
* Observation: `resize` of the generators seeds all of them again with seed 0 (rng_state.hxx:112, 127), so numbers repeat after a resize.  The heating never needs more than the 131072 that are set up (`heat_need`), so does not cause it.

## Gauss's law with the push of the GPU (C70; CudaGaussModel/Spec/Proofs/Props.v)

The model of the time step of C30 (GaussModel) has a further scheme for the current, `sch_cuda dep bs`: what
`calc_j` of cuda_push_mprts_yz.cxx:240-393 adds for one particle in a block of bs cells.  `gpu_pushed` is the push as
the GPU does it: the particles of each process are in a store that holds them (C58's `represents`), the launches of
C63 run in any order of blocks, threads and atomic adds, and leave the field J; momenta after the push are any
function of process, patch and particle (that they are those of the CPU is C67).  `gpu_run` is any number of such
steps; the rest of a step is that of C30 (the GPU's exchange of ghost points and field updates are equal to it, C66 and
C68).  C70_push: what the kernels leave is the current of `pushed` of C30.  From it follow continuity, Gauss's law
and progress (from every store a step can be made; and every set of particles can be stored).

Needed: every process has particles at every step (`busy`) - if not, push_mprts returns at once
(cuda_push_mprts_yz.cxx:555-557) and the current of the last step is added to E again (C59); patches are made of whole
blocks; for dim_yz blocks of at least 3 x 3 cells with (bs_y+3)(bs_z+3) <= 512 (true of BS144).
Not modelled here: that the step of the whole GPU program is composed of its memory-level parts
(C58, C63, C66, C67, C68 are each proved of the memory, and composed only through what they represent).

## The initial fields (C71, C72; SetupFldModel/Spec/Proofs/RunProofs/Props.v)

Modelled: setup_fields.hxx (run, runScalar), its version cuda/setup_fields_cuda.hxx, centering.hxx (get_pos with its assert),
Patch::xb, get_nc, get_cc (grid.hxx:34-61, 84-88), Foreach_3d (grid.hxx:124-139), every `+=` checked against the bounds of the
storage, and pre_first_step (psc.hxx:220-228) with the messages of C10.  A rounding function is applied after every operation
on positions: the identity for C71, any function for C71_start, Flocq's round to nearest even in binary64 for C72.  Not modelled:
that `i + .5f` is a float sum (exact below 2^22), fused multiply-add, rounding of the values themselves, the copy of the fields to the GPU after the setup on the host,
conditions at walls in pre_first_step (nothing in a periodic domain).

The specification (SetupFldSpec.v) has Yee's grid by global index (`yee`: E and J in the middle of edges, H in the middle of faces), independent of patches, and central
differences of functions of space.  C71_setup says the code computes this from patch offsets and local indices;
C71_ghosts and C71_start give the hypothesis `single_valued` from which C30 starts, so C71_gauss is Gauss's law from the initial
conditions on.

Findings:
- C72 is refuted: positions are computed as (offset * dx + corner) + i * dx in doubles, so patches that store the same point may place it
  differently in the last place.  Witness: dx = 1/6, corner -1/2: the first patch has 3 * dx rounded to 1/2, a tie, so the position is 0; the second has
  -1/2 + 2 dx, exact, plus dx, which is -2^-55.  A periodic function that jumps there is 1 in one patch and -1 in the other, the
  owner.  pre_first_step overwrites the ghost value, so a run is not affected; anything that uses the fields between setup and
  pre_first_step is.
- The fields are added to (`+=`), not set: a second call doubles them.
- The loop uses the largest number of ghost points in all directions of more than one cell; were they unequal it would run outside of the arrays.
  The hypothesis `a_domain` excludes it, as all cases do (n_ghosts * get_noninvariant_mask).
- setupScalarField with edge or face centering fails an assert of centering.hxx (component -1).

## Tables of initial conditions (C73, C74; TableModel/Spec/Proofs/Props.v)

Modelled: table.hxx of src/psc_bgk_util (safe_getline by the lines that successive calls deliver, the header as a map with the
effect of operator[] on names that are not there, the rows, get, get_row with its two loops, get_interpolated), and getHoleSize
of bgk_params.hxx.  std::stod is a parameter, as is rounding; infinities and NaN are not modelled, nor are the messages printed, nor the other
functions of bgk_params.hxx and the case psc_bgk.cxx itself.

Findings (C74, refuted):
- `header[column_name]` adds a name that is not in the table with column 0.  get_interpolated("v_phi", ...) on a table without that column returns values of the
  first column (rho, say), and has_column then says that the column exists; psc_bgk.cxx:354-359 asks for Te and v_phi without has_column.
- The constructor does not check that the file could be opened (parsing::assert_file_open exists but is only called by count_lines): the table is
  empty, and the first look-up reads data[1] of an empty vector.  The same access is outside for a table of one row.
- `(int)(val / delta)` is undefined if it does not fit; the table may be strictly increasing with the value in it (0, 2^-32, 1 and value 1).
- Reading stops at the first empty line without a message.

## The BGK case (C75, C76; BgkModel/Spec/Proofs/Props.v)

Modelled: getSpikeSize, getCalculatedBoxSize and the lines of loadParams on the box and the patches (bgk_params.hxx), with the checks of the constructor of
Domain; getCoord, v_phi_cdf and the momenta of pdist (psc_bgk.cxx).  Arithmetic is exact.  std::erf is a parameter: C75 holds for every function whose
derivative is a multiple of exp(-x^2) and that goes from -1 to 1; `an_error_function` constructs one, so that the hypothesis can be met.  How velocities are drawn from
the distribution function is C42 (InvertedCdf).  Not modelled: the initial potential and its derivatives, ions, pdist_case4 but for its last lines.

The two Gaussians of v_phi_cdf are shown to be the density exp(-w) (1 - h0 exp(-4 k l^2)), which is nowhere in the code.  It is assumed that h0 < 1: the code takes every h0,
and for h0 > 1 the density is negative somewhere.

Findings (C76, refuted):
- getSpikeSize is negative for H_x < 0 (the root of the cubic is), so that std::max ignores the spike and the box may end inside of it.
- n_patches is n_grid / n_cells_per_patch, which is 0 if there are fewer cells; Domain then computes gdims % 0.  n_patches_3 has a case for this, n_patches has not.
  If the division is not exact, either Domain stops with its error or, if the quotient happens to divide, patches have another number of cells than asked for (10 cells, 4 per patch: 2 patches of 5).
- n_cells_per_patch has to be given even if n_patches is (bgk_params.hxx:158 asks for it in any case).

## Domains with one patch per process (C77; SimpleModel/Spec/Proofs/Props.v)

Modelled: mrc_domain_simple.c with rank2proc, proc2rank, get_neighbor_rank, do_setup (one process at a time makes one step, in any order, with messages buffered or not; the
broadcast of the numbers of cells from the last process), get_global_patch_info and get_neighbor_rank_patch.  Simplification: a message is kept after it has been received.
Not modelled: MPI itself, the ddc, reading and writing the domain.

Finding (C77_info_refuted): if processes are given different numbers of cells (lm), get_global_patch_info and get_local_patch_info still tell gdims / np cells and an offset to match.
For two processes of 3 and 5 cells the second patch starts at 3 with 5 cells, but is said to start at 4 with 4.  Domains of this type are made in mrc_io_xdmf.c:1912 and mrc_io_srv.c:856.

## Coordinates (C78; CrdsModel/Spec/Proofs/Props.v)

Modelled: _mrc_crds_setup with the global array and its bounds, mrc_crds_gen_uniform_run, mrc_crds_get_dx (mrc_crds.c) and the nodes of hdf5_write_mcrds (mrc_io_xdmf.c), one
direction at a time and in exact arithmetic.  Not modelled: the copies in single precision, reading and writing objects, coordinates of type "mb".

Findings (C78, refuted in two parts):
- In a direction of one cell without ghost points (sw = 0 is the default, mrc_crds.c:446) both ends are extrapolated from a neighbour that is not there: the lower one reads x(1), which is the
  spacing stored behind the coordinates, and the upper one reads x(-1) in front of the array.  This happens in ds_xdmf_to_one_write_field (mrc_io_xdmf.c:1911-1916), which makes a domain of all
  cells without ghost points, for fields that are invariant in one direction.  For its own domain psc asks for two ghost points (mrc_domain.hxx:41), for which it is proved that all is well.
- hdf5_write_mcrds does the same for a patch of one cell if bnd = sw = 0, also if the domain has more cells.

## The log of seeded bugs (seeded/LOG.jsonl)

`theorems_failed` lists the theorems of the claim in files that no longer build with the edit.  The build of a file stops at its first error, so that this is an upper bound: a lemma that
fails takes all theorems of the files after it with it.  `first_failing` names the lemma or theorem at which the build stopped.  Edits that do not stop the build, and edits that were found to be stopped only
by the script of a proof or an example, have a `note` or `theorems_tightened`.

## Assumptions per theorem (output of `Print Assumptions`)

<!-- assumptions begin -->
| file | axioms | theorems |
|---|---|---|
| AvgProps.v | classic, functional_extensionality_dep, sig_forall_dec, sig_not_dec | C60_split_xyz, C60_split_partial, C60_var1, C60_2d_partial, C60_same, C61_continuity_yz, C61_xyz, C61_yz_partial, C61_near_block, C61_jx_refuted |
| AvgProps.v | functional_extensionality_dep, sig_forall_dec | C61_total_yz, C61_2d_midpoint |
| BalanceProps.v | functional_extensionality_dep, sig_forall_dec | C06_best_mapping, C06_loads_positive, C06_find_best_mapping, C07_all_zero_fails, C07_some_zero_loads_refuted, C07_zero_loads_partial |
| BalanceProps.v | classic, functional_extensionality_dep, sig_forall_dec, sig_not_dec | C06_best_mapping_float |
| BalanceProps.v | none | C08_fields, C08_particle_numbers, C08_particles, C08_initial, C08_phases |
| BgkProps.v | classic, functional_extensionality_dep, sig_forall_dec, sig_not_dec | C75_cdf, C75_increasing, C76_spike, C76_box_partial, C76_negative_refuted |
| BgkProps.v | functional_extensionality_dep, sig_forall_dec, sig_not_dec | C75_potential |
| BgkProps.v | functional_extensionality_dep, sig_forall_dec | C75_momentum, C75_coord, C76_given |
| BgkProps.v | none | C76_patches, C76_thin, C76_patches_refuted |
| BinColProps.v | classic, functional_extensionality_dep, sig_forall_dec, sig_not_dec | C22_conserved, C22_neutral, C22_patch |
| BndPrtProps.v | functional_extensionality_dep, sig_forall_dec | C13_conserved, C13_removed, C15_speed, C15_exact, C15_reflecting |
| BndPrtProps.v | classic, functional_extensionality_dep, sig_forall_dec, sig_not_dec | C14_partial, C14_consistent, C14_refuted |
| CrdsProps.v | functional_extensionality_dep, sig_forall_dec | C78_uniform_partial, C78_thin_refuted, C78_shared, C78_interleaved, C78_spacing, C78_file_partial, C78_file_refuted |
| CudaBndProps.v | none | C66_fill, C66_kept, C66_key_refuted |
| CudaBndProps.v | functional_extensionality_dep, sig_forall_dec | C66_add |
| CudaCollProps.v | classic, functional_extensionality_dep, sig_forall_dec, sig_not_dec | C64_collisions, C64_runs, C64_none, C64_conserved, C64_strength |
| CudaFldProps.v | sig_forall_dec | C67_cache |
| CudaFldProps.v | functional_extensionality_dep, sig_forall_dec, sig_not_dec | C67_push, C67_step |
| CudaGaussProps.v | classic, functional_extensionality_dep, sig_forall_dec, sig_not_dec | C70_gauss, C70_continuity, C70_push, C70_progress |
| CudaLaunchProps.v | none | C62_simple, C62_simple2, C62_q, C62_threads, C62_simple_yz_partial, C62_simple_yz_refuted |
| CudaLaunchProps.v | classic, functional_extensionality_dep, sig_forall_dec, sig_not_dec | C63_shared, C63_global |
| CudaMomProps.v | functional_extensionality_dep, sig_forall_dec, sig_not_dec | C65_process_partial, C65_item_partial, C65_values_partial, C65_item_refuted |
| CudaPrtProps.v | none | C58_run, C58_schedule, C58_last_particle_refuted, C58_receive_repair_refuted, C59_current_partial, C59_current_piles_up, C59_current_refuted |
| CudaPushFldProps.v | functional_extensionality_dep, sig_forall_dec | C68_push_yz, C68_push_xyz, C68_marder |
| CudaPushFldProps.v | sig_forall_dec | C68_runs |
| DdcPrtProps.v | none | C16_delivery, C16_sources, C16_conserved |
| DdcPrtProps.v | functional_extensionality_dep, sig_forall_dec | C17_positions |
| DepositProps.v | functional_extensionality_dep, sig_forall_dec | C23_weights, C23_nonnegative, C23_local, C23_sum, C23_particles, C24_split_xyz, C24_zigzag_xyz, C24_var1, C24_2d, C24_split_partial, C24_zigzag_partial, C24_invariant_refuted, C24_with_deposition, C24_in_bounds |
| DomainProps.v | none | C01_ownership, C01_no_owner_beyond, C02_tiling, C02_accepts, C03_bydim, C03_morton, C04_hilbert_core, C04_hilbert, C04_hilbert_accepts, C04_hilbert_accepts_2d, C05_neighbours |
| EnergyProps.v | functional_extensionality_dep, sig_forall_dec, sig_not_dec | C49_particles_partial, C49_particles_distribution, C49_neutral_refuted |
| EnergyProps.v | sig_forall_dec | C49_fields_fault_refuted |
| EnergyProps.v | functional_extensionality_dep, sig_forall_dec | C49_fields_refuted, C49_fields_partial |
| EsirkProps.v | functional_extensionality_dep, sig_forall_dec | C25_conserves, C25_with_deposition, C52_first_order, C52_second_order_partial, C52_second_order_refuted |
| FieldProps.v | functional_extensionality_dep, sig_forall_dec, sig_not_dec | C27_boris, C27_energy, C27_magnetic, C27_electric, C28_speed, C28_velocity, C28_step, C28_distance |
| FieldProps.v | functional_extensionality_dep, sig_forall_dec | C29_one_push, C29_faraday, C29_run, C30_one_push, C30_ampere, C30_run, C31_diffusion, C31_no_defect, C31_conserved_bounded, C31_cuda_refuted |
| GaussProps.v | classic, functional_extensionality_dep, sig_forall_dec, sig_not_dec | C30_gauss, C30_continuity, C30_progress, C30_checks |
| GhostProps.v | none | C09_layout, C10_fill, C10_owner_unique, C10_thin_refuted |
| GhostProps.v | functional_extensionality_dep, sig_forall_dec | C11_add |
| HeatProps.v | classic, functional_extensionality_dep, sig_forall_dec, sig_not_dec | C69_rate, C69_seam, C69_cpu, C69_gpu |
| InjectProps.v | functional_extensionality_dep, sig_forall_dec, sig_not_dec | C56_inject_partial, C56_fast_draw, C56_inject_refuted |
| InputProps.v | none | C45_lines, C45_lookup, C45_bool, C45_int_partial, C45_trailing_refuted, C45_range_refuted, C45_guards |
| InterpProps.v | functional_extensionality_dep, sig_forall_dec | C26_linear, C26_linear_exact, C26_constant, C26_stencil |
| LoopProps.v | functional_extensionality_dep, sig_forall_dec | C34_means_partial, C34_step0_refuted, C34_step0_fails, C35_disabled_refuted, C35_zero_interval_faults, C35_disabled_partial |
| LoopProps.v | none | C34_windows, C36_checkpoints, C36_restart, C36_crash, C47_schedule, C47_sequence, C47_order, C47_stats_every_zero, C51_fresh_partial, C51_marder_refuted, C51_marder_stale |
| LoopProps.v | functional_extensionality_dep, sig_forall_dec, sig_not_dec | C46_courant, C46_sharp, C46_no_dimension |
| LoopProps.v | classic, functional_extensionality_dep, sig_forall_dec, sig_not_dec | C46_stable |
| MomentProps.v | functional_extensionality_dep, sig_forall_dec, sig_not_dec | C57_moments, C57_rho, C57_succeeds, C57_decomposition, C57_neutral |
| MomentProps.v | functional_extensionality_dep, sig_forall_dec | C57_within |
| OpenGhostProps.v | sig_forall_dec | C33_ghosts |
| OutPrtProps.v | none | C55_output_partial, C55_region_within_patch, C55_select_all, C55_select_every_nth, C55_output_refuted |
| RadiateProps.v | functional_extensionality_dep, sig_forall_dec | C33_partial, C33_current_refuted, C33_patch_refuted, C33_position_refuted |
| RadiateProps.v | sig_forall_dec | C33_index_refuted |
| ReflectProps.v | functional_extensionality_dep, sig_forall_dec | C48_fold, C48_total, C48_moments, C48_thin_refuted |
| RestartProps.v | none | C37_restart_partial, C37_spacing_refuted, C37_no_patches_refuted |
| RngProps.v | functional_extensionality_dep, sig_forall_dec | C42_sample_partial, C42_get_partial, C42_zero_refuted, C42_support_refuted |
| RngSupportProps.v | functional_extensionality_dep, sig_forall_dec | C42_support_ends |
| SetupFldProps.v | functional_extensionality_dep, sig_forall_dec | C71_setup, C71_scalar, C71_ghosts, C71_start, C71_div |
| SetupFldProps.v | classic, functional_extensionality_dep, sig_forall_dec, sig_not_dec | C71_gauss, C72_doubles_partial, C72_doubles_refuted |
| SetupProps.v | functional_extensionality_dep, sig_forall_dec | C43_density, C43_counts, C43_succeeds, C43_neutral_partial, C43_neutral_refuted, C44_estimate_partial, C44_estimate_refuted, C53_placed |
| SimpleProps.v | none | C77_offsets, C77_progress, C77_ends, C77_completes, C77_tiles, C77_info_partial, C77_accepts, C77_info_refuted, C77_neighbors |
| SortProps.v | none | C12_cell_index, C19_sort, C20_sorts_equal, C21_offsets, C21_collisions, C21_after_sort |
| TableProps.v | functional_extensionality_dep, sig_forall_dec | C73_row, C73_interpolated, C73_line, C73_rows, C73_hole, C74_missing_column_refuted, C74_missing_file_refuted, C74_one_row_refuted, C74_guess_refuted |
| TableProps.v | none | C74_read_partial, C74_refused |
| TableProps.v | sig_forall_dec | C74_blank_refuted |
| TotalProps.v | functional_extensionality_dep, sig_forall_dec | C54_split_zigzag, C54_var1, C54_esirkepov, C54_2d_partial, C54_2d_refuted |
| UtilProps.v | none | C18_ids_unique, C18_overflow, C50_ids_after_rebalance_refuted, C50_repeats, C50_ids_unique_partial, C38_range_partial, C38_nested_loops, C38_range_refuted, C38_empty_ranges, C39_storage, C39_views, C39_aos, C39_flatten_index, C40_bounds_refuted, C40_in_bounds_iff, C40_check_insufficient, C40_count_refuted, C40_fill_refuted, C40_bitfield_partial, C41_bintree, C41_patch_map |
| WallProps.v | functional_extensionality_dep, sig_forall_dec | C32_E_partial, C32_H_partial, C32_J_partial, C32_J_fold_partial, C32_parity_refuted, C32_J_second_layer_refuted, C32_corner_refuted |
| WallProps.v | sig_forall_dec | C32_x_refuted |
<!-- assumptions end -->
