# Formal model of entity-toolkit/entity in Rocq

Source: `/repo` (C++20, Kokkos, MPI, ADIOS2), read as text.  Model and proofs:
`/verif/rocq/theories`, logical name `Verif`, Coq 8.16.1.  Nothing is extracted or run.

Contents: layout, conventions, what each property models and how it is proved, where the code
disagrees with a property, trusted base, code that is modelled, code that is not.

## Layout of the development

For each area there are up to five kinds of files:

* `<Area>Model.v`  – executable Gallina definitions, each with a comment citing the
  file and lines it models and saying what is simplified.  No proofs of properties.
* `<Area>Spec.v`   – small specification vocabulary that does not mention the model.
* `<Area>Proofs.v`, `<Area>Top.v` – lemmas.
* `<Area>Props.v`  – the property theorems only, each closed by `exact <lemma>`,
  followed by `Print Assumptions`, and accompanied by an `Example` which meets
  the theorem's hypotheses on a concrete, non-trivial case.

Naming: `Cxx_...` is a full statement of (part of) property Cxx; the suffix `_partial`
marks a statement that covers only part of the property; the suffix `_refuted`
marks a counterexample: the faithful model violates the property as stated.
`MANIFEST.json` lists the theorems of every property with a status: `proved` (the statement as
written, under the stated hypotheses), or `partial` (something is missing or refuted).

## Modelling conventions

* `ncells_t`, `npart_t`, `timestep_t` are `uint32_t`; unbounded `Z`/`nat` are used except
  where a property is about wrap-around; then `mod 2^32` (`w32`) is explicit.
* Kernels on `real_t` are modelled over the real numbers `R` (exact arithmetic).  Where
  rounding is the point (truncated quotient of two doubles in `decompose1D`, in-cell offset
  stored as `float`, text output of the time, output layout, sampled velocities) the model says so
  and uses Flocq.
* A parallel kernel is a fold over an arbitrary permutation of its index range; threads that
  obtain slots by an atomic counter do so in an arbitrary order.  Atomic additions of a deposit are
  a list performed in any order.
* `raise::Error`/`raise::Fatal` are error values (`Err`); undefined behaviour (index past the
  end, division by zero) is a distinct outcome (`UB`), see `Base.v`.
* MPI is modelled as reliable, in-order point-to-point transfer; whether a send returns before it is
  received is left open (`MpiModel.v`).
* ADIOS2 variables are arrays addressed by (corner, count) selections.
* The file system holds complete or incomplete files by name; a crash keeps a prefix of
  the operations issued, and a recursive removal is not atomic.

## Properties

Notes on hypotheses and missing parts are in `MANIFEST.json`.

| id | property | model | proof | status |
|----|----|----|----|----|
| C01 | Domain decomposition tiles the grid exactly | Decomp | sum/size lemma, prefix sums; Flocq: truncation of the rounded double quotient equals integer division | proved |
| C02 | Automatic decomposition uses exactly the requested number of subdomains | Decomp | termination of the divisor search; 3D with wrapping products and its counterexample | partial |
| C03 | Subdomain numbering is a bijection and neighbour relations are symmetric | Decomp | mixed-radix bijection, modular arithmetic | proved |
| C04 | A subdomain side carries the user's boundary condition exactly when it lies on the global boundary | Topo | case analysis over positions | proved |
| C05 | Every message sent between subdomains has exactly one matching receive | Topo, Mpi | neighbour involution, symmetry of the conditions; deadlock freedom by an invariant over all schedules of blocking calls | proved |
| C06 | Nothing is exchanged through a non-periodic global boundary | Topo | face case proved, counterexample at a corner | partial |
| C07 | Ghost exchange delivers the neighbour's data | Halo | per-dimension zone lemma lifted to D dimensions, any interleaving of the events | proved |
| C08 | Current synchronisation adds every contribution exactly once | Halo (Sync) | per-dimension sum lemma lifted to D dimensions, exchange of finite sums | proved |
| C09 | Outgoing-particle tags identify the direction of departure | Dirs | finite tables by computation for D = 1, 2, 3; positions by case analysis | proved |
| C10 | Direction accessors report dimension and sign of axis-aligned directions and reject others | Dirs | tables by computation; counterexample for diagonals | partial |
| C11 | Removing dead particles keeps every live particle intact | Prtl | permutation reasoning over any thread order | proved |
| C12 | Spatial sorting permutes particles and groups them by cell | Prtl | permutation and sortedness of the bin sort; induction over the species of a pass | proved |
| C13 | Particle exchange neither loses nor duplicates particles | PrtlComm | multiset equality over all ranks, built on C05 and C09 | proved |
| C14 | The position update advances particles exactly and keeps them in a valid cell | Push | real arithmetic case analysis; Flocq counterexample and error bound in single precision | partial |
| C15 | Particle boundary conditions do what their name says | Push | case analysis over conditions and positions | proved |
| C16 | Zig-zag deposit satisfies the discrete continuity equation | Deposit | finite-difference identities per path segment; exact defect in 3D | partial |
| C17 | Higher-order deposit satisfies the discrete continuity equation | Deposit | running sums telescope; partition of unity from C18 | proved |
| C18 | Particle shape weights are a non-negative partition of unity | Shape | each order as a B-spline by polynomial identities per interval, induction over the order | proved |
| C19 | Deposit and interpolation stencils stay inside the allocated arrays | Shape, Deposit, Interp | linear arithmetic on index ranges; counterexample for even orders | partial |
| C20 | The magnetic update preserves the divergence of B | Field | ring identities on arbitrary fields, any thread order | partial |
| C21 | Gauss's law is maintained over whole steps | Step (Gauss) | induction over steps using C16/C17, C22, C23, C44 | partial |
| C22 | The electric update from curl B preserves the divergence of E | Field | ring identities; axis rows separately; counterexample for the GR axis | partial |
| C23 | Current filtering conserves total current and commutes with the continuity equation | Filter, Step | ring identities, sums over the periodic box; counterexample in 3D | partial |
| C24 | Perfect-conductor boundaries mirror fields | Wall | index case analysis, induction over faces | partial |
| C25 | The Boris push conserves energy in a pure magnetic field and is time reversible | Vel | polynomial identities, square roots | proved |
| C26 | The Vay push conserves energy in a pure magnetic field and keeps force-free particles | Vel | uniqueness of the solution of the implicit equation | proved |
| C27 | Particle tracking identifiers are unique for the whole run | Inject, Prtl, PrtlComm, Ckpt | invariant over operation histories of all ranks; wrap-around counterexample | partial |
| C28 | Injection never writes outside the particle arrays | Inject | slots of any thread order; every over-full schedule reaches undefined behaviour | partial |
| C29 | Global injection places each listed particle once with the listed weight | Inject | one owner from the tiling of C01; conversions increasing and exact at edges | partial |
| C30 | Checkpointed fields are restored exactly on every subdomain | Ckpt | selections tile the array; round trip for any order of ranks | proved |
| C31 | Checkpointed particles are restored exactly on every subdomain | Ckpt | prefix sums; round trip; counterexample for another memory layout | proved |
| C32 | Checkpoint rotation keeps the newest ones | Run | invariant over lists of saves and external deletions | partial |
| C33 | A crash never destroys the last complete checkpoint | Run | invariant over all prefixes of the operation list | partial |
| C34 | Restart resumes at the saved simulation time and step | Run | text round trip of the step; rounding bound and counterexample for the time | partial |
| C35 | Immutable parameters stay fixed across restarts | Run | induction over restarts | partial |
| C36 | Output is triggered on schedule | Run | invariant over query sequences | partial |
| C37 | Downsampled field output is the strided global field | Out | Flocq: ceil of double quotients is exact; strided selections tile the file | proved |
| C38 | Particle moments conserve the total | Moment | partition of unity of the shapes; sum over particles and cells | partial |
| C39 | Moving the window is independent of the decomposition | Window | index arithmetic on decomposed arrays, exchanges from C07 and C13 | partial |
| C40 | Region queries on a mesh return the intersection | Mesh | interval case analysis, floor and ceiling | partial |
| C41 | The parameter store returns what was last set | Param | refinement to a finite map, induction over histories | proved |
| C42 | Coordinate conversions are mutually inverse | Met | inverse functions in R, trigonometric identities, mean value theorem | partial |
| C43 | Vector basis transformations are consistent | Met, Ks | algebra of Jacobians; derivative of a position | proved |
| C44 | The distributed field solver computes the single-domain solution | Step | simulation relation between subdomains and the global grid, induction over steps | proved |
| C45 | Piston reflection conserves energy in the piston frame | Vel | Lorentz transformation to the piston frame | proved |
| C46 | Radiative drags are independent of each other's presence | Vel | algebra; counterexample with both drags | partial |
| C47 | Bulk-velocity boosts and rotations of sampled velocities are isometries | Vel | algebra; Flocq counterexample | partial |
| C48 | The GR field update keeps the documented time levels | GrStep | symbolic execution of the operation list on time levels, induction over steps | partial |
| C49 | The GR particle push updates the azimuth | GrPush | the stored value is shown to be constant; local correctness of the dropped value | partial |
| C50 | Accepted Cartesian boundary specifications are paired-periodic | Bc | exact characterisation of accepted specifications | proved |
| C51 | Run length is independent of interruptions | Run | induction over interruptions | proved |
| C52 | Emission of photons conserves momentum | Emit | vector algebra; counterexamples | partial |
| C53 | Field-solver loops do not depend on the execution order | Field | commutation of bodies with disjoint footprints; counterexample | partial |
| C54 | The guiding-centre push gives a consistent, subluminal drift | Vel | algebra, bound of the series against the exact factor | proved |
| C55 | The field solver conserves energy in vacuum and is stable below the Courant limit | Step | summation by parts on the reference solution, transported by C44 | proved |
| C57 | All ranks take the same output decisions | Run | two ranks with different clocks | partial |
| C58 | The reported bulk velocity is a mean of particle velocities | Moment | weighted mean; speed below one | proved |
| C59 | Matching-layer thicknesses are those of the input | Bc | case analysis of list lengths | partial |
| C60 | The area of the polar cells is the integral of the volume element | Met, Ks | antiderivatives; small-angle branch | partial |
| C61 | The Kerr-Schild metrics describe a black hole | Ks | algebra of the inverse metric, line element in the Kerr-Schild form | proved |
| C62 | Metric derivatives are the derivatives of the metric | Ks | derivatives with `derivable_pt_lim`; counterexample | partial |
| C63 | The energy component completes a four-velocity | Ks | normalisation of the four-velocity | proved |
| C64 | The reported smallest cell size limits every particle | Met, Ks | maximum of coordinate speeds over the light cone | proved |
| C65 | GR particles follow geodesics | GrPush | one fixed point iteration against the derivatives of the Hamiltonian | partial |
| C66 | GR pusher: conserved quantities and work of the fields | GrPush | third component untouched by every stage; Boris rotation in the tetrad | proved |
| C67 | The GR field update does not depend on where subdomain borders lie | GrStep | footprints of kernels; an abstract step with validity of ghost cells | partial |
| C68 | GR particles at boundaries | GrPush | case analysis of cell indices; tags by C09 | partial |
| C69 | GR auxiliary fields | Aux | samples of arbitrary fields; triangle inequality; mean value theorem | proved |
| C70 | Statistics file | Stats | cell by cell comparison of the kernels with the densities on the undivided grid and re-indexing of the cells of all ranks; particle columns against the field output through C38; counterexamples for weights, masses, curvilinear volumes and T with index letters | partial |
| C71 | Vector fields in the output | Phys | kernel independence of the order, induction over dimensions for the interpolation, translation of centres | proved |
| C72 | Vector potential in the output | Vpot | each rank runs its part of the double loop as a list of sends and receives; invariant over arbitrary interleavings (phases of each rank, contents of the channels); progress by a decreasing measure; telescoping of the trapezoidal sums | proved |
| C73 | Current filter at walls and axes | Fwall | separable stencils, continuation as a factor and a source index, case analysis on the distance from the wall | partial |
| C74 | Matching layers | Match | kernel per component as a fold, loops as arbitrary permutations, tanh rewritten as a logistic weight; the range of cells from C40's lemmas on extents; agreement of all subdomains with one matched global field | partial |
| C75 | Fields at the polar axis | Axis | kernel as a sequence of array updates per column, columns in any order; mirror map on positions; interpolation of C17 reads only rows that the images cover | partial |
| C76 | Particle atmosphere and density-driven injection | Atmos | moment kernel of C38 with nearest-cell deposition, then one rounding per cell with an arbitrary random number, pairs appended in any order; density after = density before + pairs / ppc0 by summation; derivative of the profile compared with the pusher's acceleration | proved |
| C77 | Fields enforced inside an atmosphere | Enf | kernel as a fold over components in any order of cells; the comparisons with the edge shown equivalent to the position lying on or outside one node; ranges of subdomains from C74; sides commute | partial |
| C78 | Horizon and absorbing boundaries in general relativity | Hor | columns as folds of copies whose source row is never a target; divided grids by the offsets of blocks along the radius; dispatch as a function from conditions to kernel calls | partial |
| C79 | Fixed fields at a boundary | Fix | the copy to a subview as an update of all cells in a range; ranges compared to global coordinates; induction over the list of sides | partial |
| C80 | Fields set by the problem generator | Set | bodies that write values known beforehand, over permutations of the active cells; stencils written out and compared with means along each axis; missing arrays as undefined behaviour | partial |
| C81 | Output of the divergence of E | Div | one write per cell; the exchange reads only ghost cells when it adds to active ones, by induction over axes; fluxes compared per dimension; trigonometric bounds for the counterexample | partial |
| C82 | Output of particles | Pout | fetch-and-add filling reused from C11; rows depend only on the attributes compaction moves; windows of the ranks are disjoint and cover the file, by induction over any order of writing | partial |
| C83 | Energy spectra | Spct | index as the floor of a scaled energy, compared with arithmetic and geometric edges; sums over any order by permutation; completion of the square for the energy in GR; Flocq for the index in single precision | partial |
| C84 | Bulk four-velocity of the GR engine | Eck | flux of the particles, normalisation and change of basis in the three Kerr-Schild metrics, exact reals; orthonormal frame, reversed Cauchy-Schwarz inequality, induction over the particles | partial |
| C85 | Species of the input file | Spcs | tables to species, promised and defined keys, choice of the pusher of both engines, strings as Coq strings; a description written as a table is read back and run, by induction over the list | partial |
| C86 | Sampled velocities follow the named distribution | Smp | random numbers as a list, exact reals; the loop is characterised by induction over its turns in both directions; distribution functions by inversion, by derivatives and by iterated Riemann integrals (Coquelicot) | partial |
| C87 | Requested output quantities and the datasets written for them | Nm | names as strings; reading characterised in both directions by induction over strings and lists; names shown injective by reading them back; acceptance of a pair of lists and writing given as exact conditions | proved |
| C88 | Total current and the meaning of the input scales | Un | sums of the deposited contributions over nodes (partition of unity for every order, Dep and Shape); scales as in the input; update coefficients reduced to one form; Boris push of the uniform plasma with the mean value theorem for the velocity | proved |
| C89 | Radiation as drag and as emission | Rd | emission and drag on exact reals; mean as an integral over the random number; exact factor between the two; window of Lorentz factors by solving the inequality | partial |
| C90 | Output schedule, downsampling, species and command line as asked | Op | a small specification of what is asked (first positive one of four entries); the stored pair is shown to mean it by cases, and the theorems on the tracker (C36) give the run; downsampling and arguments by induction on lists | partial |
| C91 | The report of a step says what happened | Rep | exact reals with truncation as floor and casts that do not fit as undefined; durations by cases on the unit, history by induction, shares by summation; imbalance by bounds on the logistic function | partial |
| C92 | Uniform injection fills the requested region with the requested density | Uni | exact reals over the region queries of C40; ends of the box clamped to the subdomain, number as a truncated cast that is undefined out of range; places by the increasing conversion, decomposition by induction over the cuts in each dimension and over the dimensions, mean weight as an integral over the random number | partial |
| C93 | The tables of the report are printed and aligned, whatever their contents | Tbl | strings as bytes, colours kept apart from text, unsigned 64-bit wrap of the fill written out, reserve of 2^63 bytes or more as an exception; induction over the columns with the position reached; UTF-8 by an independent encoder | partial |
| C94 | All ranks ask for the same number of output aggregators | Agg | a job as the list of ranks per node, integer division and 32-bit product as in the code; bounds by induction over the nodes; names of engines by equality up to case | partial |
| C95 | A moment over chosen species is their sum and leaves the rest of the buffer alone | Mws | a species as the list of its contributions, launches as folds in any order; induction over species and contributions | partial |

## Where the code disagrees with a property

Each of these is a theorem (usually `_refuted`); the property keeps its full statement.

* C02 – the product of the cells of a slab wraps at 2^32: 65536 x 65536 cells divide by zero; explicit
  decompositions whose product wraps are accepted.
* C06 – a corner or edge between a periodic and a non-periodic direction wraps around.
* C10 – `get_dim` accepts diagonal directions.
* C12 – a species sorted in a pass may be unordered at the end of the same pass.
* C13 – particles tagged for a direction without a partner disappear.  (The overflow check ignores the
  slots freed by the particles that leave.)
* C14 – in single precision the offset can become exactly 1; curvilinear positions below -1 get a wrong cell.
* C15 – outside Cartesian coordinates a reflection converts the velocity at 3/4 old + 1/4 new position.
* C16 – the zig-zag deposit violates the continuity equation in 3D (the correction term is missing).
* C17 – the literal THIRD makes the 3D Esirkepov scheme exact only up to the factor 3 THIRD.
* C19 – even shape orders write outside the array when the particle ends in the upper half of the cell
  past the box.
* C20 – a Faraday stencil with beta or delta preserves only an extended divergence.
* C22, C53 – the GR Ampere kernel copies the neighbouring row on the axis: Gauss's law is broken there and the
  in-place call depends on the thread order.
* C23 – the 3D filter is not the product of 1D filters (two taps are listed twice, two are missing).
* C24 – an upper conducting wall leaves the outermost ghost layer of normal E and tangential B unset.
* C26 – the Boris push does not keep a force-free particle at rest in its drift (the Vay push does).
* C27 – the 32-bit counter wraps, and identifiers repeat.
* C28 – the kernel writes before the capacity is checked; a pair injected into one species loses half of it.
* C29 – listed weights are never used.
* C31 – payload arrays are permuted when a run resumes with another memory layout.
* C32 – rotation stops for good once the oldest file has been removed from outside.
* C33 – a crash while a checkpoint is written makes the restart fail or pick the incomplete one.
* C34 – the time is stored with six decimals; steps from 2^31 on cannot be resumed.
* C35 – the second restart loses the original immutable parameters.
* C36 – a wall-time checkpoint requested in the first two steps is lost; an interval of 0 divides by zero.
* C37 – `output.debug.ghosts` writes past a vector; fewer downsampling factors than dimensions are read past
  the end; the last cell edge is wrong or missing.
* C38 – the share of a particle beyond the upper axis is lost; the lower axis reflects row -1 to row 1.
* C39 – shifts wider than the ghost zone leave stale cells; negative or larger than the array: undefined;
  with one subdomain along an open direction particles that left keep a send tag and raise an error later.
* C40 – boxes open above drop a dimension, so `Intersects` holds for disjoint boxes; ghost cells are
  miscounted at an interior end.
* C41 – vectors with an empty inner vector print as `}]`.
* C42 – negative angular stretching makes the conversion NaN.
* C46 – with both drags on, the Compton drag is evaluated at the wrong velocity.
* C47 – a drift near the antipode divides by zero in single precision.
* C48 – with initial particles given together with the fields the levels are 3/2 steps apart; the first averaged
  current is halved; the row on the upper axis is not averaged.
* C49 – the azimuth is computed and dropped.
* C52 – a photon without recoil if the drag is off; recoil without a photon below the minimal energy.
* C57 – ranks with different clocks disagree on a wall-time checkpoint.
* C59 – without MPI malformed lists are silently replaced.
* C60 – the polar area of both quasi-spherical metrics is 4 times too small in the small-angle branch.
* C62, C65 – derivatives of h^22 of the stretched quasi-spherical Kerr-Schild metric are wrong, and so is the push.
* C67 – E at n-1/2 reads ghost cells of D that were not averaged (matters around a rotating hole); with the field
  solver off the pusher reads ghost cells nobody set.
* C68 – the GR pusher implements only absorbing, horizon and axis boundaries; others accepted by the input do
  nothing, and under MPI the next push raises an error.
* C73 – at an upper conductor the filter treats the tangential currents as if the wall stood one cell inside the
  domain; between two conductors it reads behind the upper one.
* C72 – the vector potential is summed from the face half a cell below the axis, so its first row is always zero although the flux between the axis and that row is not (`C72_axis_refuted`); the offset depends on the radius.
* C70 – with `particles.use_weights` the Rho and Charge columns drop mass and charge and equal N (`C70_weights_refuted`), and T ignores the weights.
* C70 – the T columns use u instead of m u: T0i is off by m, Tij by m^2 (`C70_stress_refuted`).
* C70 – on curvilinear grids a particle is weighted with the cell volume where it is, although n = 1/V would cancel it: the N column depends on where the particles are (`C70_curvilinear_refuted`).
* C70 – totVolume in spherical metrics is (r2^2-r1^2)(th2-th1), an area; averages scale with the unit of length (`C70_volume_refuted`).  In kerr_schild and qkerr_schild it is zero, and every column is a division by zero.
* C70 – T with index letters has one entry in the header but up to six in each row (`C70_columns_refuted`).
* C74 – a matching layer thicker than the subdomain at the edge leaves the ghost cells below each inner border unmatched: the layer's range takes no ghost cells on the inner side, and boundaries are applied after the exchange of ghost cells, so a cell and its copy differ until the next exchange (`C74_thick_layer_refuted`; srpic/fields_bcs.h:82-97, srpic.hpp:73-101).
* C75 – the axis boundary condition mirrors only one row and never the first electric component; shape functions of order two and more read further (`C75_wide_shapes_refuted`: 7/8 of a uniform radial field on the axis).
* C76 - the atmosphere target is documented as a number density but compared with the mass density: species heavier than the unit are not replenished (`C76_heavy_refuted`).
* C76 - gravity of an upper atmosphere acts at any distance below the surface, because `ds` is not negated (`C76_upper_extent_refuted`); a lower one ends at `ds`.
* C76 - `ds = 0`, the default, documented as no limit, gives neither target density nor gravity (`C76_no_limit_refuted`).
* C76 - an upper buffer on a grid with fewer cells than the buffer wraps around in `ncells_t` (`C76_case_small_grid`).
* C77 - below, the enforced fields end one cell short of the surface that holds the particles; above they end at it (`C77_surface`, `C77_mirror_refuted`): `il_edge = range_max - 1 - N_GHOSTS`.
* C77 - a subdomain that lies inside the atmosphere leaves the normal electric and tangential magnetic components of its last cell unset (lower side), because the edge is taken from the clipped range; the result depends on the division (`C77_inside_refuted`).
* C78 - the horizon condition for auxiliary fields is dispatched but does nothing: `HorizonFieldsIn` only acts for `gr_bc::main` (`C78_auxiliary_refuted`).
* C78 - the horizon kernel counts two ghost cells; with three or more the row next to the source keeps its own values (`C78_wide_shapes_refuted`).
* C78 - the horizon kernel skips the ghost columns between subdomains, which hold values from before (`C78_ghost_columns_refuted`).
* C78 - more filter passes than radial cells make the horizon kernel read outside the array (`C78_horizon`).
* C78 - currents are damped only in subdomains at the outer edge, fields in every subdomain the layer reaches (`C78_currents`, `C78_main`).
* C79 - fixed values are converted at code position zero: at the outer radius of a spherical grid the second component is off by the ratio of the radii (`C79_curvilinear_refuted`), and the third divides by the sine of the lowest angle, which is zero on a full grid (`C79_axis_refuted`).
* C79 - the fixed region includes the boundary node above but not below (`C79_mirror_refuted`).
* C79 - `pgens/shock/pgen.hpp:123` and `examples/custom_particle_update/pgen.hpp:119` define `FixFieldsConst` with two arguments; the trait in `global/traits/pgen.h:99` asks for three, so the fixed boundary of these generators is silently skipped (read off the source, not modelled).
* C80 - `CustomSetEMFields_kernel` never initialises its member `buffer` (the constructor's argument is unnamed, `field_setter.h:312-318`): every call of `arch::UpdateEMFields` reads a null view (`C80_update_refuted`); with the copy stored the kernel is right (`C80_update_with_copy`).
* C80 - in general relativity a generator with one or two of the three magnetic (or electric) functions gets none of them set, silently (`C80_gr_subset_refuted`).
* C80 - `UpdateEMFields` leaves ghost cells as they were (`// comm here`): they disagree with the neighbours until the next exchange (read off `C80_update_with_copy`, which speaks of active cells).
* C81 - on curvilinear grids in 2D and 3D `ComputeDivergence_kernel` divides the flux around node (i1, i2) by `sqrt_det_h` at the middle of the cell (i1 + 1/2, i2 + 1/2) (`divergences.hpp:83, 117`; in 1D it is the node): the output is shifted by half a cell, and near the axis it stays wrong at every resolution - for the radial field E = r (divergence 3) it gives 0 on the axis and at most 9/4 on the next row (`C81_curvilinear_refuted`).
* C82 - `OutputWrite` trusts `is_sorted()` for species that are not tracked: particles marked dead by user code after the step (`CustomPostStep`, as in `pgens/shock/pgen.hpp:291`), when the last pass cleared the species, are written as if alive (`C82_dead_refuted`).
* C82 - without tracking the number of rows is the sum over ranks of npart / stride: it depends on the division, and ranks with fewer particles than the stride write none (`C82_division_refuted`). `output.particles.stride = 0` is accepted and divides by zero (`C82_zero_stride`).
* C83 - `ParticleDistribution_kernel` puts energies at or above `e_max` into bin `n_bins` (`particle_moments.hpp:781`), but the array has `n_bins` entries (`metadomain_io.cpp:827`): a write past the end (`C83_overflow_refuted`). In single precision the quotient rounds up to `n_bins` also for energies just below `e_max`: with the default bins for log10(e) = 3 - 2^-22 (`C83_rounding_refuted`).
C84: in the GR output of the bulk four-velocity the flux of a particle is computed with the metric at its own place and the norm of the sum with the metric at the centre of the cell. A particle that is fast enough (Lorentz factor of the order of the square root of r / (2 dr)) and closer to the axis or to the hole than the centre has a spacelike flux there; a cell with only such particles is then reported as being at rest (C84_displaced_refuted), as if it were empty.
C85: the checks on species compare the whole pusher string with "photon": "photon," or "photon,photon" gives a charged massive species the free-streaming pusher (C85_massive_photon_refuted), and no check stops a massless species with "boris", which is pushed with 0/0 (C85_massless_boris_refuted). "gca" alone is accepted and aborts inside the kernel at the first particle for which the guiding-centre conditions fail (C85_gca_alone_refuted). The GR engine accepts "vay" and stops at the first push (C85_gr_vay_refuted), and accepts emission = "synchrotron" with radiative_drag = "none" without ever emitting (C85_gr_emission_refuted). photon_species = 0 passes the check and reads before the first species (C85_photon_zero_refuted). maxnpart is cast to 32 bits without a check (C85_maxnpart_refuted). Number 256 wraps to 0 (C85_index_refuted).
C86: Powerlaw adds 1 to a number between g_min and g_max, so the Lorentz factor lies in [1 + g_min, 1 + g_max] and can exceed g_max (C86_powerlaw_limit_refuted). JuttnerSinge redraws products of random numbers close to zero, so no momentum beyond temp ln(1/epsilon), about 16 temp in single precision, can be drawn (C86_tail_refuted). Below temperature 1/2 it draws normal components, whose density differs from Juttner-Synge by exp(-(gamma-1)^2/(2 temp)), more than a factor of two within the range of the switch (C86_cool_refuted).
C87: A single component of T asked for with letters is defined under one name and written under another: "Ttt" or "Txy" starts a run that stops at the first output (C87_written_refuted; C87_written shows that this is the only such case). A custom field named "Etotal" is read as E, because the name is cut at the first letter that could be an index (C87_custom_name_refuted). Species "N_257" is read as species 1 and "N_1,2" drops the 2 without a word (C87_species_refuted). T is the one quantity whose small letter is not accepted: "t00" becomes a custom field (C87_capitals_refuted). "Tii" and "Tij" together, or any quantity twice, stop the run while variables are defined (C87_init, C87_init_clash).
C89: The drag of a species goes as 1/m^2, its emission as |q|/m, so the two agree only where |q| m = 1; for ions of mass 100 the drag is a hundred times weaker (C89_mean, C89_heavier_refuted). Synchrotron emission takes the component along the motion for its probability but recoils along the full force, so that oblique motion is slowed less than by the drag (C89_mean, C89_alignment). Outside a window of Lorentz factors (about 1.06 to 18.9 for the default gamma_qed = 10; empty for gamma_qed^2 <= 20) a particle neither emits nor slows down: the fastest ones do not radiate (C89_window, C89_outside, C89_fast_refuted). A species that emits is not subject to any drag, also not to that of the other process, and it still emits in guiding-centre steps, where drags are off (C89_replaces, C89_guiding_centre).
C90: interval_time = 0 (or any negative number but -1) in a category does not inherit: without an own interval the first step divides by zero, whatever the common entries (C90_own_time_refuted; exact condition C90_undefined). A list of downsampling factors shorter than the number of directions passes all checks and is read past its end (C90_short_refuted); negative numbers are accepted as huge ones (C90_negative_refuted). Species listed for output are not checked: 0 or one above the number of species indexes out of bounds (C90_species_refuted). Without -input the code forms the successor of the end iterator before it compares, which is formally undefined although harmless in practice (C90_input_absent_refuted).
C91: The imbalance of the timers is computed as sqrt(<x^2>/<x> - 1) instead of with <x>^2 and through a logistic function that starts at 50: equal durations show at least 50%, close to 100% for a few milliseconds, and below a microsecond it is the square root of a negative number; it depends on the unit of time (C91_imbalance, C91_balanced_refuted, C91_zero_refuted, C91_unit_refuted). The remaining time counts the step just finished (C91_remaining_refuted). Shares on several ranks each refer to another rank and can add up to more than 100 (C91_ranks_refuted). normalize_duration_fmt clamps its index to the size of the table instead of the last entry and ignores the unit in its thresholds (C91_units_refuted). Shares of nothing, and use of an array of capacity 0, divide by zero before the cast (C91_nothing_refuted, C91_fullness_refuted).
C92: ComputeNumInject truncates the number of pairs on each subdomain separately and keeps no remainder: with less than one pair per call and subdomain nothing is ever injected, and the total depends on the decomposition (C92_total_number_refuted). The error of C40 (a box open above is dropped from the check of the intersection) does no harm here: the region is then empty and the number zero (C92_number covers those boxes). The cast to the 32-bit npart_t is undefined from 2^32 pairs on.
C93: alignedTable computes the fill in unsigned arithmetic: a column that does not fit asks for almost 2^64 characters, and std::string::reserve throws. The row of a species is printed only if label and number of particles have at most 22 characters together, so a label of 15 characters with 10000 particles or more ends the run at the first report (C93_too_wide_throws, C93_species_row_refuted).
C94: TotalAggregators takes the number of nodes as world size over the size of its own node: in a job with a node that is not full the ranks ask for different numbers of aggregators and subfiles (C94_ranks_agree_refuted: nodes of 2 and 1 ranks give 1 and 3).
C95: ComputeMomentWithSpecies sets the whole buffer to zero, not only the component it fills: a second moment in another component erases the first (C95_other_components_kept_refuted). The numbers of the species are not checked (C95_unknown_species).

Observed while reading, not stated as theorems: `setFldsBC` and `setPrtlBC` set the x1 direction for Mx2/Px2; the
automatic decomposition guarantees 5 cells while shape orders 9-11 need 6 or 7 ghost cells; `Piston` always uses
the left side; `cargs` can advance past the end; the smoothing order is narrowed to 8 bits; `totVolume` is not the
volume in spherical metrics (0 in Kerr-Schild) and is a divisor in the statistics.

## Trusted base

* The Coq 8.16.1 kernel (no `Unset Guard Checking`, no `-type-in-type`, no `vm_cast` tricks beyond
  `vm_compute`, which the kernel checks with its virtual machine).
* The axioms that `Print Assumptions` lists, all from the standard library: `sig_forall_dec` and `sig_not_dec`
  (classical Dedekind reals), `functional_extensionality_dep`, `Classical_Prop.classic`.  Which
  theorem uses which is listed at the end of this file.
* Flocq (binary formats and rounding) as a library of definitions and lemmas; it adds no axioms of its own.
* The reading of the C++ source by which the model was written, and the conventions above.

## Code that is modelled

| code | model |
|------|-------|
| `global/utils/tools.h` (TensorProduct, decompose1D, divideInProportions, Decompose, Tracker) | DecompModel, RunModel |
| `global/arch/directions.h`, `mpi_tags.h` | DirsModel |
| `global/utils/param_container.h`, `comparators.h` (AlmostEqual), `global.h` (Range) | ParamModel, MeshModel |
| `framework/domain/metadomain.cpp` (createEmptyDomains, redefineNeighbors, redefineBoundaries) | DecompModel, TopoModel |
| `framework/domain/metadomain_comm.cpp`, `comm_mpi.hpp` | TopoModel, HaloModel, PrtlCommModel, MpiModel |
| `framework/domain/metadomain_chckpt.cpp`, `containers/fields_io.cpp`, `particles_io.cpp` (checkpoints), `output/utils/readers.cpp`, `writers.cpp`, `output/checkpoint.cpp` | CkptModel, RunModel |
| `framework/domain/metadomain_io.cpp` (layout, coordinates, moments), `output/writer.cpp` (mesh layout, fields), `parameters/output.cpp` (downsampling) | OutModel, MomentModel |
| `kernels/fields_to_phys.hpp`, `output/fields.cpp`, their use in `metadomain_io.cpp`; vector potential | PhysModel, VpotModel |
| `kernels/divergences.hpp` and its launch | DivModel |
| `kernels/reduced_stats.hpp`, `metadomain_stats.cpp`, `output/stats.cpp` | StatsModel |
| `containers/particles_io.cpp` (output), `kernels/prtls_to_phys.hpp` | PoutModel |
| `framework/domain/metadomain_sort.cpp`, `containers/particles*.cpp`, `global/utils/sorting.h`, `kernels/comm.hpp` | PrtlModel, PrtlCommModel |
| `framework/domain/mesh.h`, `grid.cpp` (ranges), `metadomain_reshape.cpp`, `archetypes/moving_window.h` | MeshModel, StepModel, WindowModel |
| `framework/simulation.cpp`, `parameters/parameters.cpp` (metadata), `engines/engine.hpp` (loop) | RunModel |
| `framework/parameters/grid.cpp` (boundary conditions, matching layers) | BcModel |
| `kernels/particle_shapes.hpp`, `currents_deposit.hpp`, `digital_filter.hpp`, `divergences.hpp` | ShapeModel, DepositModel, FilterModel, StepModel |
| `kernels/faraday_*.hpp`, `ampere_*.hpp`, `aux_fields_gr.hpp` | FieldModel, GrStepModel |
| `kernels/fields_bcs.hpp`, `engines/srpic/fields_bcs.h`, `engines/grpic/fields_bcs.h` | WallModel, MatchModel, AxisModel, EnfModel, HorModel, FixModel |
| `archetypes/particle_injector.h` (atmosphere), `engines/srpic/particles_bcs.h`, gravity in `pushers/sr.hpp` | AtmosModel |
| `archetypes/field_setter.h` and its use in the engines | SetModel |
| `kernels/pushers/sr.hpp`, `context.h`, `archetypes/piston.h`, `energy_dist.h` (boost, rotation) | VelModel, PushModel, InterpModel |
| `kernels/pushers/gr.hpp` | GrPushModel |
| `kernels/injectors.hpp`, `archetypes/particle_injector.h`, `archetypes/emission/*` | InjectModel, EmitModel |
| `framework/parameters/particles.cpp`, `extra.cpp`, `engines/*/particle_pusher.h`, `pushers/sr_policies.h` (choice of policies) | SpcsModel |
| `archetypes/energy_dist.h` (Powerlaw, JuttnerSinge, first part of Maxwellian) | SmpModel |
| `output/utils/interpret_prompt.cpp`, `output/fields.*` (id, components, species, names), `writer.cpp` (definition of field variables), `metadomain_io.cpp` (list of names) | NmModel |
| `parameters.cpp` (scales), `srpic/fieldsolvers.h`, `grpic/fieldsolvers.h` (coefficients of the currents), `ampere_mink.hpp`, `ampere_sr.hpp`, `ampere_gr.hpp` (CurrentsAmpere: scaling), `pushers/sr.hpp` (scale of the push) | UnModel |
| `parameters/extra.cpp` (nominal probability and energy), `pushers/context.h` (drag coefficients), constructors of the emission policies, `pushers/sr.hpp` (choice between drags and emission) | RdModel |
| `parameters/output.cpp` (schedule, downsampling, species), `metadomain_io.cpp` (enable, species), `writer.cpp` (factors), `utils/cargs.cpp`, `simulation.cpp` (arguments) | OpModel |
| `progressbar.h`, `progressbar.cpp`, `timer.cpp` (gather), `tools.h` (ArrayImbalance), `diag.cpp` (npart_stats: fraction) | RepModel |
| `archetypes/particle_injector.h` (DeduceRegion, ComputeNumInject, InjectUniform), `kernels/injectors.hpp` (places and weights of uniform injection) | UniModel |
| `utils/formatting.h` (repeat, strlenUTF8, alignedTable), `utils/diag.cpp` (rows of step, time, species) | TblModel |
| `output/utils/tuning.cpp` | AggModel |
| `archetypes/utils.h` (ComputeMomentWithSpecies) | MwsModel |
| `kernels/particle_moments.hpp` | MomentModel, EckModel (GR four-velocity), SpctModel (energy distribution) |
| `output/writer.cpp` (spectra), spectra in `metadomain_io.cpp` | SpctModel |
| `metrics/*.h` | MetModel, KsModel |
| `engines/srpic/srpic.hpp`, `fieldsolvers.h`, `currents.h` | StepModel |
| `engines/grpic/grpic.hpp`, `fieldsolvers.h`, `utils.h` | GrStepModel |

## Code that is not modelled

* Velocity conversions other than through an arbitrary function (`PoutModel`).
* `GeodesicFullPush` (never called); the 1D and 3D variants the GR engine does not compile.
* Problem generators.
* Input parsing (toml11), plotting parameters, logging, clocks and layout of the printed report.
* Kokkos, MPI and ADIOS2 themselves, GPU memory spaces, mirrors and fences; a kernel that is launched is
  taken to have finished before its result is used.
* Floating point rounding, except where the model says so.

## Axioms by theorem

**no axioms (closed under the global context)** — 154 theorems:
`C01_decomposition_tiles_the_grid`, `C02_free_decomposition_1d`, `C02_free_decomposition_2d`, `C02_free_decomposition_3d_partial`, `C02_free_decomposition_3d_refuted`, `C02_product_wrap_refuted`, `C02_requests_are_met_2d`, `C02_requests_are_met_3d`, `C03_neighbours_are_symmetric`, `C03_numbering_is_a_bijection`, `C04_field_condition_of_a_face`, `C04_particle_condition_of_a_face`, `C05_every_send_has_its_receive`, `C05_message_extents_agree`, `C05_no_exchange_can_hang`, `C06_corner_refuted`, `C06_no_wrap_through_a_face_partial`, `C07_exchange_can_complete`, `C07_exchange_with_any_boundary_conditions`, `C07_ghost_cells_hold_the_periodic_grid`, `C07_independent_of_the_decomposition`, `C09_direction_table_is_complete`, `C09_tag_is_direction_of_departure`, `C09_tags_are_invertible`, `C09_unique_table_is_half`, `C10_accessors_on_axis_aligned_partial`, `C10_get_dim_refuted`, `C10_get_sign_rejects_others`, `C10_hash_is_injective`, `C11_remove_dead_fails_only_on_send_tags`, `C11_remove_dead_keeps_live_particles`, `C12_pass_keeps_live_particles`, `C12_sort_permutes_and_groups_by_cell`, `C12_sorted_after_pass_refuted`, `C13_arrives_in_an_active_cell`, `C13_exchange_conserves_particles`, `C13_only_particles_without_partner_are_lost`, `C13_overflow_is_an_error`, `C13_rank_receives_exactly_what_is_sent`, `C13_without_partner_refuted`, `C27_counter_wrap_refuted`, `C27_identifiers_unique_partial`, `C28_next_free_slots`, `C28_next_free_slots_pair`, `C28_rejected_before_writing_pair_refuted`, `C28_rejected_before_writing_refuted`, `C28_same_species_refuted`, `C30_fields_are_restored`, `C30_layout_is_restored`, `C30_regions_tile_the_array`, `C31_other_memory_layout_refuted`, `C31_particles_are_restored`, `C32_external_deletion_refuted`, `C32_negative_keeps_all`, `C32_newest_are_kept`, `C32_zero_writes_nothing`, `C33_crash_while_writing_refuted`, `C33_last_completed_survives`, `C33_restart_uses_newest_partial`, `C34_large_step_refuted`, `C34_step_is_restored`, `C35_first_restart_partial`, `C35_second_restart_refuted`, `C35_unchanged_inputs_partial`, `C39_other_shifts_are_undefined`, `C39_particles_move_by_the_shift_partial`, `C39_periodic_fields_move_partial`, `C39_shift_is_defined`, `C39_single_subdomain_keeps_tag_refuted`, `C41_missing_parameter`, `C41_printing_empty_inner_refuted`, `C41_printing_partial`, `C41_promised_means_promised`, `C41_promised_parameters_readable`, `C41_promises_checked`, `C41_read_returns_last_set`, `C41_wrong_type_is_an_error`, `C50_accepted_is_paired`, `C50_layers_are_promised`, `C50_not_ruled_out`, `C50_premise_of_exchanges`, `C50_what_is_accepted`, `C51_interruptions_do_not_matter`, `C68_which_boundaries_partial`, `C70_columns_partial`, `C70_columns_refuted`, `C78_auxiliary_refuted`, `C78_currents`, `C78_divided_partial`, `C78_horizon`, `C78_idempotent`, `C78_main`, `C82_all`, `C82_dead_refuted`, `C82_division_refuted`, `C82_stride`, `C82_tracked`, `C82_variables`, `C82_zero_stride`, `C85_accepted`, `C85_drag_names`, `C85_gca_alone_refuted`, `C85_gr_emission_refuted`, `C85_gr_vay_refuted`, `C85_index_refuted`, `C85_massive_photon_refuted`, `C85_massless_boris_refuted`, `C85_maxnpart_refuted`, `C85_photon_zero_refuted`, `C85_promises`, `C85_pusher_names`, `C85_pusher_refused`, `C85_read`, `C85_runs`, `C85_runs_gr`, `C85_skipped`, `C87_capitals_refuted`, `C87_custom_apart`, `C87_custom_name_refuted`, `C87_distinct`, `C87_init`, `C87_merge`, `C87_named`, `C87_only`, `C87_recognised`, `C87_species_refuted`, `C87_tensor`, `C87_written`, `C87_written_refuted`, `C90_input`, `C90_input_absent_refuted`, `C90_input_last`, `C90_only_short`, `C90_resuming`, `C90_sampling`, `C90_short_refuted`, `C90_species_default`, `C90_species_refuted`, `C91_history`, `C91_history_refuted`, `C93_columns_at_anchors`, `C93_species_row_mpi_partial`, `C93_species_row_partial`, `C93_species_row_refuted`, `C93_step_row`, `C93_too_wide_throws`, `C93_width`, `C94_bounds`, `C94_equal_nodes_partial`, `C94_left_to_the_library`, `C94_one_process`, `C94_ranks_agree_refuted`, `C94_tuned`, `C94_untuned`.

**`ClassicalDedekindReals.sig_forall_dec`** — 18 theorems:
`C07_every_state_is_a_grid`, `C15_absorbing_boundaries`, `C15_inside_untouched`, `C15_only_normal_velocity_flips`, `C15_periodic_boundaries`, `C15_tagged_for_an_existing_neighbour`, `C39_fields_move_by_the_shift_partial`, `C39_larger_shifts_leave_stale_cells`, `C59_malformed_lists_refuted`, `C59_thickness_as_given_partial`, `C75_idempotent`, `C76_buffer`, `C79_all_sides`, `C79_divided`, `C79_values`, `C83_unique`, `C95_bad_component`, `C95_unknown_species`

**`FunctionalExtensionality.functional_extensionality_dep`** — 6 theorems:
`C48_every_step_partial`, `C48_initial_particles_refuted`, `C48_one_step`, `C67_exchanges_partial`, `C67_test_particles_refuted`, `C79_idempotent`.

**`ClassicalDedekindReals.sig_forall_dec`, `FunctionalExtensionality.functional_extensionality_dep`** — 190 theorems:
`C08_active_cells_collect_every_contribution`, `C08_total_is_conserved`, `C14_curvilinear_far_outside_refuted`, `C14_curvilinear_position`, `C14_offset_stays_in_the_cell_partial`, `C15_curvilinear_flip`, `C15_reflecting_boundaries`, `C15_where_the_velocity_is_flipped`, `C16_zigzag_3d_defect`, `C16_zigzag_3d_refuted`, `C16_zigzag_continuity_partial`, `C17_deposit_order_independent`, `C17_esirkepov_any_third`, `C17_esirkepov_continuity`, `C17_third_literal_refuted`, `C18_interpolate_affine`, `C18_interpolate_between`, `C18_interpolate_constant`, `C18_orders`, `C18_shape_functions`, `C18_weights_are_splines`, `C18_weights_centred`, `C18_weights_nonnegative`, `C18_weights_sum_to_one`, `C19_deposit_in_bounds_partial`, `C19_even_order_refuted`, `C19_interpolation_in_bounds`, `C20_extended_divergence_is_plain`, `C20_faraday_curvilinear`, `C20_faraday_gr`, `C20_faraday_preserves_divB`, `C20_tuned_faraday_divB_refuted`, `C20_tuned_faraday_preserves_extended_divB`, `C21_a_run_completes`, `C21_divergence_follows_the_charge_partial`, `C21_gauss_law_is_kept_partial`, `C22_ampere_curvilinear`, `C22_ampere_gr_axis_refuted`, `C22_ampere_gr_off_axis_partial`, `C22_ampere_lower_axis`, `C22_ampere_preserves_divE`, `C22_ampere_upper_axis`, `C22_currents_change_divE_by_divJ`, `C23_continuity_is_inherited`, `C23_passes_filter_the_whole_grid`, `C23_product_in_3d_refuted`, `C23_product_of_1d_filters_partial`, `C23_total_current_is_conserved`, `C23_values_stay_within_bounds`, `C24_all_walls_partial`, `C24_lower_walls`, `C24_untagged`, `C24_upper_last_ghost_refuted`, `C29_exactly_one_owner`, `C29_placed_once_partial`, `C29_weights_ignored_refuted`, `C29_weights_refuted`, `C36_step_interval`, `C36_time_interval`, `C36_wall_time_checkpoint_partial`, `C36_wall_time_checkpoint_refuted`, `C36_wall_time_fires_once`, `C36_zero_interval_refuted`, `C38_axis_loss`, `C38_cell_values`, `C38_in_bounds`, `C38_periodic_cells`, `C38_periodic_total`, `C38_storage_total_partial`, `C39_places_are_kept`, `C40_cartesian_conversion`, `C40_interior_end_with_ghosts_refuted`, `C40_intersection_partial`, `C40_intersects_partial`, `C40_no_cells_outside`, `C40_open_above_refuted`, `C40_range_covers_exactly_the_cells`, `C40_ranges_with_ghosts`, `C42_minkowski`, `C42_minkowski_extent`, `C42_spherical`, `C43_minkowski`, `C43_minkowski_velocity`, `C44_distributed_run_is_the_reference_solution`, `C44_independent_of_the_decomposition`, `C44_runs_can_complete`, `C48_first_current_refuted`, `C48_poles_refuted`, `C53_ampere_curvilinear_order`, `C53_ampere_order`, `C53_currents_order`, `C53_faraday_curvilinear_order`, `C53_faraday_order`, `C53_gr_ampere_in_place_refuted`, `C53_gr_ampere_main_order`, `C53_gr_faraday_order`, `C55_code_is_stable`, `C55_courant_condition_gives_stability`, `C55_energy_formula`, `C55_vacuum_energy_is_conserved`, `C57_ranks_agree_partial`, `C57_wall_time_ranks_differ_refuted`, `C58_velocity_bounded`, `C58_velocity_is_a_mean`, `C67_border_error`, `C67_kernels`, `C67_no_rotation`, `C69_E`, `C69_H`, `C70_field_columns`, `C71_as_is`, `C71_exact_for_affine_fields`, `C71_fields_at_the_cell_centres`, `C71_ghost_cells`, `C71_independent_of_the_decomposition`, `C71_within_the_neighbours`, `C72_axis_refuted`, `C72_difference`, `C72_exact_for_quadratic_potentials`, `C72_independent_of_the_decomposition`, `C72_no_deadlock`, `C73_axes`, `C73_lower_wall`, `C73_two_walls_refuted`, `C73_upper_wall_one_cell_low`, `C73_upper_wall_partial`, `C73_upper_wall_refuted`, `C75_boundary`, `C75_divided`, `C75_felt_partial`, `C75_images`, `C75_wide_shapes_refuted`, `C76_neutral`, `C76_pairs`, `C76_uniform_target`, `C77_divided_partial`, `C77_idempotent`, `C77_inside_refuted`, `C77_mirror_refuted`, `C77_sides_partial`, `C77_surface`, `C77_values`, `C78_ghost_columns_refuted`, `C78_wide_shapes_refuted`, `C79_mirror_refuted`, `C80_divided`, `C80_gr_subset_refuted`, `C80_initial`, `C80_initial_gr`, `C80_interpolation`, `C80_update_refuted`, `C80_update_with_copy`, `C81_cartesian`, `C81_charge`, `C81_curvilinear`, `C81_physical`, `C88_engines`, `C88_external`, `C88_mean_field`, `C88_read`, `C88_sigma`, `C88_total_current`, `C90_each`, `C90_every`, `C90_negative_refuted`, `C90_off`, `C90_own_time_refuted`, `C90_undefined`, `C91_average`, `C91_bar`, `C91_duration`, `C91_fullness`, `C91_fullness_refuted`, `C91_nothing_refuted`, `C91_percentages`, `C91_ranks`, `C91_ranks_refuted`, `C91_remaining_refuted`, `C91_same_value`, `C91_units_refuted`, `C92_mean_weight`, `C92_number`, `C92_places`, `C92_refusals`, `C92_regions_tile`, `C92_total_number_partial`, `C92_total_number_refuted`, `C95_order_free`, `C95_other_components_kept_refuted`, `C95_sum_over_species`

**`ClassicalDedekindReals.sig_forall_dec`, `ClassicalDedekindReals.sig_not_dec`, `FunctionalExtensionality.functional_extensionality_dep`** — 85 theorems:
`C14_cartesian_push_exact`, `C25_boris_is_reversible`, `C25_boris_preserves_the_magnitude`, `C25_boris_solves_its_equation`, `C26_boris_force_free_refuted`, `C26_vay_is_reversible`, `C26_vay_is_the_unique_solution`, `C26_vay_keeps_a_force_free_particle`, `C26_vay_preserves_the_magnitude`, `C38_axis_refuted`, `C38_mirror_refuted`, `C43_available`, `C43_cartesian_norm`, `C43_physical_velocity`, `C43_spherical`, `C43_velocity`, `C43_volume`, `C45_ends_in_front_of_the_piston`, `C45_reflection_in_the_piston_frame`, `C46_both_drags_compute`, `C46_drags_decelerate`, `C46_single_drags_partial`, `C46_sum_of_drags_refuted`, `C47_boost_is_a_lorentz_transformation`, `C47_rotation_hits_the_drift`, `C47_rotation_is_an_isometry`, `C49_azimuth_frozen_refuted`, `C52_compton_momentum_partial`, `C52_no_recoil_refuted`, `C52_recoil_without_photon_refuted`, `C52_synchrotron_momentum_partial`, `C54_drift_is_e_cross_b`, `C54_drift_is_subluminal`, `C54_guiding_centre_is_consistent`, `C54_weak_field_branch`, `C58_particles_below_c`, `C60_kerr_schild_0`, `C62_kerr_schild`, `C62_kerr_schild_0`, `C67_rotating_refuted`, `C67_same_metric`, `C68_landing`, `C68_other_tags`, `C68_tags`, `C68_unhandled_boundaries_refuted`, `C69_metrics`, `C69_no_hole`, `C70_curvilinear_refuted`, `C70_moment_columns`, `C70_number_column`, `C70_stress_refuted`, `C70_volume_refuted`, `C70_weighted_stress_refuted`, `C70_weights_refuted`, `C74_divided_partial`, `C74_update`, `C76_hydrostatic`, `C76_lower_extent`, `C76_no_limit_refuted`, `C76_profile`, `C76_upper_extent_refuted`, `C78_absorbed`, `C79_axis_refuted`, `C79_curvilinear_refuted`, `C81_curvilinear_refuted`, `C86_cool_ratio`, `C86_direction`, `C86_flip`, `C86_flip_weight`, `C86_isotropic`, `C86_turned`, `C88_acceleration`, `C88_larmor`, `C88_power`, `C89_alignment`, `C89_compton`, `C89_fast_refuted`, `C89_guiding_centre`, `C89_heavier_refuted`, `C89_mean`, `C89_outside`, `C89_radiated`, `C89_replaces`, `C89_saturation`, `C89_window`.

**`ClassicalDedekindReals.sig_forall_dec`, `ClassicalDedekindReals.sig_not_dec`, `Classical_Prop.classic`, `FunctionalExtensionality.functional_extensionality_dep`** — 91 theorems:
`C01_double_quotient_exact`, `C14_offset_below_one_refuted`, `C14_single_precision_error_partial`, `C34_exact_time_refuted`, `C34_time_error_partial`, `C37_coordinates_partial`, `C37_declared_shape`, `C37_file_is_strided`, `C37_ghosts_refuted`, `C37_last_edge_missing_refuted`, `C37_last_edge_short_refuted`, `C37_short_factor_list_refuted`, `C37_written_once`, `C42_minkowski_spherical`, `C42_negative_stretching_refuted`, `C42_quasi_spherical_partial`, `C42_spherical_cartesian`, `C43_cartesian`, `C43_four_vectors`, `C43_kerr_schild`, `C43_quasi_spherical`, `C47_single_precision_refuted`, `C49_azimuth_refuted`, `C49_computed_azimuth_partial`, `C60_kerr_schild_partial`, `C60_quasi_kerr_schild_partial`, `C60_quasi_kerr_schild_small_refuted`, `C60_quasi_spherical_partial`, `C60_quasi_spherical_small_refuted`, `C60_spherical`, `C61_consistent`, `C61_line_element`, `C62_quasi_kerr_schild_angular_refuted`, `C62_quasi_kerr_schild_partial`, `C62_quasi_kerr_schild_radial_refuted`, `C63_energy_component`, `C64_smallest`, `C64_speed_limit`, `C65_conversions`, `C65_momentum_flat`, `C65_momentum_kerr_schild`, `C65_momentum_quasi_kerr_schild_partial`, `C65_momentum_quasi_kerr_schild_refuted`, `C65_position`, `C66_angular_momentum`, `C66_kicks`, `C69_second_order`, `C74_relaxation`, `C74_thick_layer_refuted`, `C74_weight`, `C76_amounts`, `C76_fill`, `C76_heavy_refuted`, `C76_refilled`, `C76_settles`, `C78_damped`, `C83_edges`, `C83_energy`, `C83_overflow_refuted`, `C83_rounding_refuted`, `C83_spectrum`, `C84_cold`, `C84_direction`, `C84_displaced_refuted`, `C84_fallback`, `C84_flux`, `C84_physical`, `C84_timelike`, `C84_unit`, `C86_accepts`, `C86_boosted`, `C86_box_muller`, `C86_cold`, `C86_cool`, `C86_cool_refuted`, `C86_juttner`, `C86_powerlaw`, `C86_powerlaw_direction`, `C86_powerlaw_limit_refuted`, `C86_proposal`, `C86_radius`, `C86_rejection`, `C86_tail_refuted`, `C86_warm`, `C88_frequency`, `C88_gyration`, `C88_plasma_frequency`, `C91_balanced_refuted`, `C91_imbalance`, `C91_unit_refuted`, `C91_zero_refuted`.
