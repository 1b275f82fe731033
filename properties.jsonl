{"id": "C01", "title": "Domain decomposition tiles the grid exactly", "statement": "Whenever the decomposition of a grid into subdomains is accepted, the subdomain sizes along every dimension sum to the grid resolution, differ by at most one cell, are all at least 5 cells, and every global cell belongs to exactly one subdomain at exactly one local index.", "quantifier": "every resolution, every number of subdomains per dimension, every dimension count", "why_tests_cant": "the sizes come from a floating-point quotient that is truncated; a test samples a few resolutions, the claim is about all of them", "anchors": ["src/global/utils/tools.h:decompose1D", "src/global/utils/tools.h:Decompose", "src/framework/domain/metadomain.cpp:createEmptyDomains"]}
{"id": "C02", "title": "Automatic decomposition uses exactly the requested number of subdomains", "statement": "When the user leaves the decomposition free, the chosen per-dimension counts are positive and multiply to exactly the requested number of subdomains, and the search for them terminates, for every requested number and every grid aspect ratio.", "quantifier": "every number of subdomains and every resolution in 1D, 2D and 3D", "why_tests_cant": "depends on divisibility and on 32-bit products of resolutions; failures are confined to inputs no test enumerates", "anchors": ["src/global/utils/tools.h:divideInProportions2D", "src/global/utils/tools.h:divideInProportions3D", "src/global/utils/tools.h:Decompose"]}
{"id": "C03", "title": "Subdomain numbering is a bijection and neighbour relations are symmetric", "statement": "Each subdomain index corresponds to exactly one position in the domain grid and vice versa, and whenever subdomain A sees B as its neighbour in some direction, B sees A as its neighbour in the opposite direction.", "quantifier": "every domain grid shape, every subdomain, every direction including diagonals", "why_tests_cant": "an asymmetric pair shows up only for particular shapes (e.g. one domain wide and periodic)", "anchors": ["src/framework/domain/metadomain.cpp:redefineNeighbors", "src/framework/domain/domain.h"]}
{"id": "C04", "title": "A subdomain side carries the user's boundary condition exactly when it lies on the global boundary", "statement": "For every subdomain and face direction the effective field and particle boundary condition is the user's global one iff the face is on the global boundary and that boundary is not periodic with more than one domain; all other faces are synchronised with the neighbour.", "quantifier": "every decomposition, subdomain, face and boundary specification", "why_tests_cant": "combinatorial in decomposition x boundary kinds", "anchors": ["src/framework/domain/metadomain.cpp:redefineBoundaries"]}
{"id": "C05", "title": "Every message sent between subdomains has exactly one matching receive", "statement": "In any collective field or particle exchange, subdomain A sends to B in direction d iff B receives from A for the same d, with equal message extents, so no exchange can hang or mismatch.", "quantifier": "every decomposition, every boundary specification with paired periodicity, every direction", "why_tests_cant": "a mismatch is a deadlock that only appears on the particular rank layout", "anchors": ["src/framework/domain/metadomain_comm.cpp:GetSendRecvRanks", "src/framework/domain/metadomain_comm.cpp:GetSendRecvParams"]}
{"id": "C06", "title": "Nothing is exchanged through a non-periodic global boundary", "statement": "If a face of the global grid is not periodic, no diagonal or face exchange wraps around that face.", "quantifier": "every decomposition and boundary specification", "why_tests_cant": "needs a mixed boundary specification and a corner direction on a particular rank", "anchors": ["src/framework/domain/metadomain.cpp:redefineBoundaries", "src/framework/domain/metadomain_comm.cpp:GetSendRecvRanks"]}
{"id": "C07", "title": "Ghost exchange delivers the neighbour's data", "statement": "After a ghost-cell exchange on a periodic grid, every ghost cell of every subdomain holds the value its owner subdomain stores in the corresponding (periodically wrapped) active cell, active cells are unchanged, and the result is independent of the decomposition.", "quantifier": "every decomposition, field contents, dimension and ghost width not larger than the smallest subdomain", "why_tests_cant": "index arithmetic across all corners and wraps; tests check a few shapes", "anchors": ["src/framework/domain/metadomain_comm.cpp:CommunicateFields", "src/framework/domain/metadomain_comm.cpp:GetSendRecvParams", "src/framework/domain/comm_mpi.hpp"]}
{"id": "C08", "title": "Current synchronisation adds every contribution exactly once", "statement": "After synchronising a deposited quantity, every active cell holds the sum over all subdomains of what they deposited at that global cell (own cell plus overlapping ghost cells), and the total over the grid is the total that was deposited.", "quantifier": "every decomposition, every deposited content, every dimension", "why_tests_cant": "double counting or omission only shows at corners of particular layouts", "anchors": ["src/framework/domain/metadomain_comm.cpp:SynchronizeFields", "src/framework/domain/comm_mpi.hpp"]}
{"id": "C09", "title": "Outgoing-particle tags identify the direction of departure", "statement": "The direction tables list each non-zero direction exactly once; tag encoding is invertible; a live particle is tagged as staying iff it is inside the local box, otherwise with the tag of exactly the direction(s) in which it left; dead particles remain dead.", "quantifier": "every particle position and dimension", "why_tests_cant": "finite tables but arbitrary integer positions", "anchors": ["src/global/arch/directions.h", "src/global/arch/mpi_tags.h:SendTag"]}
{"id": "C10", "title": "Direction accessors report dimension and sign of axis-aligned directions and reject others", "statement": "For an axis-aligned direction the reported dimension and sign are those of its only non-zero component; for any other direction the call reports an error.", "quantifier": "every direction in 1D, 2D, 3D", "why_tests_cant": "the faulty branch needs a diagonal direction with a specific sign", "anchors": ["src/global/arch/directions.h:get_dim", "src/global/arch/directions.h:get_sign"]}
{"id": "C11", "title": "Removing dead particles keeps every live particle intact", "statement": "After dead-particle removal, the live particles are exactly the previous live ones (same multiset, all attributes of a particle kept together), the particle count equals the number of live ones, and no dead particle remains, whatever the order in which threads acquire slots.", "quantifier": "every particle content, every interleaving of the parallel gather", "why_tests_cant": "thread interleavings cannot be enumerated by tests", "anchors": ["src/framework/containers/particles_sort.cpp:RemoveDead"]}
{"id": "C12", "title": "Spatial sorting permutes particles and groups them by cell", "statement": "Spatial sorting returns a permutation of whole particles in which live particles appear in non-decreasing order of their cell index.", "quantifier": "every particle content and mesh size", "why_tests_cant": "unbounded contents and meshes", "anchors": ["src/framework/containers/particles_sort.cpp:SortSpatially", "src/global/utils/sorting.h"]}
{"id": "C13", "title": "Particle exchange neither loses nor duplicates particles", "statement": "After a collective particle exchange every live particle that was tagged for a reachable neighbour exists exactly once, in the subdomain it moved to, with all attributes unchanged and its global position unchanged (modulo the periodic box); all others stay; no slot of a staying particle is overwritten, and the count never exceeds the capacity.", "quantifier": "every number of subdomains, particle contents, tags and arrival order", "why_tests_cant": "slot reuse and hole filling depend on counts in every direction simultaneously", "anchors": ["src/framework/containers/particles_comm.cpp:Communicate", "src/kernels/comm.hpp", "src/framework/domain/metadomain_comm.cpp:CommunicateParticles"]}
{"id": "C14", "title": "The position update advances particles exactly and keeps them in a valid cell", "statement": "For a displacement below one cell per step, the updated position (cell index plus in-cell offset) equals the old one plus the displacement, the cell index changes by at most one, and the offset stays in [0,1).", "quantifier": "every position and every displacement smaller than a cell", "why_tests_cant": "rounding at the cell edge; continuous input", "anchors": ["src/kernels/pushers/sr.hpp:positionPush"]}
{"id": "C15", "title": "Particle boundary conditions do what their name says", "statement": "Periodic boundaries shift a leaving particle (and its previous position) by exactly the box size; absorbing boundaries mark dead exactly those outside; reflecting boundaries put the particle back inside at the mirrored position and flip only the normal velocity; interior particles are untouched.", "quantifier": "every particle position, velocity and boundary combination", "why_tests_cant": "edge positions (offset exactly zero) are measure-zero for tests", "anchors": ["src/kernels/pushers/sr.hpp:boundaryConditions"]}
{"id": "C16", "title": "Zig-zag deposit satisfies the discrete continuity equation", "statement": "For every particle move of less than a cell, the divergence of the deposited current at every node equals minus the change of the particle's linearly weighted charge there divided by the time step.", "quantifier": "every start and end position within neighbouring cells, every charge, weight and time step, in 1D, 2D and 3D", "why_tests_cant": "a real-valued identity over continuous inputs and all cell-crossing cases", "anchors": ["src/kernels/currents_deposit.hpp"]}
{"id": "C17", "title": "Higher-order deposit satisfies the discrete continuity equation", "statement": "For shape orders 1 to 11 the current deposited by the higher-order scheme satisfies the discrete continuity equation for the charge density of that shape order, at every node.", "quantifier": "every order 1..11, every start and end position within neighbouring cells, in 1D, 2D and 3D", "why_tests_cant": "eleven piecewise polynomials times all alignments of the two stencils over continuous inputs", "anchors": ["src/kernels/currents_deposit.hpp", "src/kernels/particle_shapes.hpp:for_deposit"]}
{"id": "C18", "title": "Particle shape weights are a non-negative partition of unity", "statement": "For every shape order and both staggerings, the interpolation weights of a particle are non-negative and sum to exactly one, and interpolating a constant field returns that constant.", "quantifier": "every order, staggering and in-cell offset", "why_tests_cant": "continuous input, piecewise definitions", "anchors": ["src/kernels/particle_shapes.hpp:order"]}
{"id": "C19", "title": "Deposit and interpolation stencils stay inside the allocated arrays", "statement": "For every particle whose current and previous cell are inside or one cell outside the local box, every array element touched by current deposition and by field interpolation is within the allocated extent.", "quantifier": "every order, box size, position", "why_tests_cant": "out-of-bounds writes are silent and appear only at one edge for one offset half", "anchors": ["src/kernels/currents_deposit.hpp", "src/kernels/particle_shapes.hpp", "src/global/global.h:N_GHOSTS"]}
{"id": "C20", "title": "The magnetic update preserves the divergence of B", "statement": "A Faraday update leaves the discrete divergence of B unchanged at every cell, for every electric field and time step.", "quantifier": "every field content, time step, stencil coefficient and dimension", "why_tests_cant": "must hold for arbitrary field contents", "anchors": ["src/kernels/faraday_mink.hpp", "src/kernels/divergences.hpp"]}
{"id": "C21", "title": "Gauss's law is maintained over whole steps", "statement": "If the discrete divergence of E equals the (scaled) deposited charge density before a step, it does after the step, and hence after any number of steps, for any particle motion below a cell per step.", "quantifier": "every number of steps, particles, positions, fields", "why_tests_cant": "an inductive claim over the whole run", "anchors": ["src/kernels/ampere_mink.hpp", "src/kernels/currents_deposit.hpp", "src/engines/srpic/srpic.hpp:step_forward"]}
{"id": "C22", "title": "The electric update from curl B preserves the divergence of E", "statement": "An Ampere update without currents leaves the discrete divergence of E unchanged at every node.", "quantifier": "every field content, coefficient and dimension", "why_tests_cant": "arbitrary field contents", "anchors": ["src/kernels/ampere_mink.hpp"]}
{"id": "C23", "title": "Current filtering conserves total current and commutes with the continuity equation", "statement": "A filter pass on a periodic grid preserves the grid total of each current component, is the product of one-dimensional (1/4,1/2,1/4) filters, and therefore maps currents that satisfy continuity for a density to currents that satisfy it for the filtered density.", "quantifier": "every current content, number of passes and dimension", "why_tests_cant": "arbitrary contents; a wrong stencil tap keeps the sum of weights equal to one and passes smoke tests", "anchors": ["src/kernels/digital_filter.hpp", "src/engines/srpic/currents.h:CurrentsFilter"]}
{"id": "C24", "title": "Perfect-conductor boundaries mirror fields", "statement": "After applying the conductor condition, tangential E and normal B vanish on the wall and all components are mirrored with the appropriate sign into the ghost cells, for every ghost depth.", "quantifier": "every field content, side, dimension and ghost width", "why_tests_cant": "arbitrary contents and all ghost depths", "anchors": ["src/kernels/fields_bcs.hpp:ConductorBoundaries_kernel"]}
{"id": "C25", "title": "The Boris push conserves energy in a pure magnetic field and is time reversible", "statement": "With zero electric field the Boris update leaves the magnitude of the four-velocity unchanged; reversing velocity and magnetic field and pushing again returns the initial velocity.", "quantifier": "every four-velocity and field", "why_tests_cant": "continuous input", "anchors": ["src/kernels/pushers/sr.hpp", "src/kernels/pushers/sr_policies.h"]}
{"id": "C26", "title": "The Vay push conserves energy in a pure magnetic field and keeps force-free particles", "statement": "With zero electric field the Vay update leaves the magnitude of the four-velocity unchanged; it is time reversible, and it leaves the velocity of a particle on which the electric and magnetic forces cancel exactly as it was.", "quantifier": "every four-velocity and magnetic field", "why_tests_cant": "continuous input with a nested square root", "anchors": ["src/kernels/pushers/sr.hpp"]}
{"id": "C27", "title": "Particle tracking identifiers are unique for the whole run", "statement": "No two particles that ever existed in a species carry the same (domain, counter) identifier, over every history of injections, emissions, removals, sorts and exchanges.", "quantifier": "every history of operations on every number of subdomains, every thread schedule", "why_tests_cant": "history property", "anchors": ["src/kernels/injectors.hpp:InjectParticle", "src/archetypes/particle_injector.h", "src/archetypes/emission/synchrotron.h"]}
{"id": "C28", "title": "Injection never writes outside the particle arrays", "statement": "An injection that would exceed the species capacity is rejected with an error before any particle memory outside the capacity is written; otherwise the new particles occupy exactly the next free slots, once each, under every thread schedule.", "quantifier": "every capacity, count, amount and schedule", "why_tests_cant": "overflow only occurs at capacity", "anchors": ["src/archetypes/particle_injector.h", "src/framework/containers/particles.h:set_npart"]}
{"id": "C29", "title": "Global injection places each listed particle once with the listed weight", "statement": "Injecting an explicit list of particles with user weights places each particle with coordinates inside the grid in exactly one subdomain, at the listed position and with the listed weight.", "quantifier": "every list, every decomposition", "why_tests_cant": "ownership at subdomain edges; weights", "anchors": ["src/kernels/injectors.hpp:GlobalInjector_kernel", "src/archetypes/particle_injector.h:InjectGlobally"]}
{"id": "C30", "title": "Checkpointed fields are restored exactly on every subdomain", "statement": "The regions written by different subdomains tile the checkpoint array without overlap, and reading a checkpoint back on the same layout restores every field value including ghosts on every subdomain.", "quantifier": "every decomposition and field content", "why_tests_cant": "offset arithmetic for all layouts", "anchors": ["src/framework/domain/metadomain_chckpt.cpp", "src/output/utils/writers.cpp", "src/output/utils/readers.cpp"]}
{"id": "C31", "title": "Checkpointed particles are restored exactly on every subdomain", "statement": "For every species the particles written by each subdomain are restored on the same subdomain in the same order with all attributes and the same counter, regardless of how many particles the other subdomains have.", "quantifier": "every particle distribution over every number of subdomains, payload counts", "why_tests_cant": "prefix offsets across ranks for arbitrary counts", "anchors": ["src/framework/containers/particles_io.cpp:CheckpointWrite", "src/framework/containers/particles_io.cpp:CheckpointRead"]}
{"id": "C32", "title": "Checkpoint rotation keeps the newest ones", "statement": "With `keep = k > 0`, after any number of checkpoints of a run the disk holds exactly the min(k, n) newest complete checkpoints; with k < 0 all are kept; with k = 0 none is written.", "quantifier": "every sequence of checkpoint saves and every k, including external deletion of files", "why_tests_cant": "history property", "anchors": ["src/output/checkpoint.cpp"]}
{"id": "C33", "title": "A crash never destroys the last complete checkpoint", "statement": "At every crash point, once one checkpoint has completed, at least one complete checkpoint exists on disk, and restarting resumes from the newest complete one.", "quantifier": "every crash point in every sequence of saves", "why_tests_cant": "crash points cannot be enumerated in tests", "anchors": ["src/output/checkpoint.cpp", "src/framework/simulation.cpp", "src/framework/domain/metadomain_chckpt.cpp:WriteCheckpoint"]}
{"id": "C34", "title": "Restart resumes at the saved simulation time and step", "statement": "The step and time at which a resumed run continues equal those at which the checkpoint was taken.", "quantifier": "every saved time and step", "why_tests_cant": "text formatting precision for all doubles", "anchors": ["src/framework/parameters/parameters.cpp:saveTOML", "src/framework/simulation.cpp"]}
{"id": "C35", "title": "Immutable parameters stay fixed across restarts", "statement": "Parameters declared immutable keep the value of the original run through any sequence of restarts, whatever later input files say.", "quantifier": "every sequence of restarts with arbitrary input files", "why_tests_cant": "needs two consecutive restarts", "anchors": ["src/framework/simulation.cpp", "src/framework/parameters/parameters.cpp"]}
{"id": "C36", "title": "Output is triggered on schedule", "statement": "With a step interval output happens exactly at multiples of the interval; with a time interval consecutive outputs are at least the interval apart and never more than one interval plus a step late; the wall-time trigger fires exactly once.", "quantifier": "every interval and every sequence of queries with non-decreasing time", "why_tests_cant": "history property", "anchors": ["src/global/utils/tools.h:Tracker"]}
{"id": "C37", "title": "Downsampled field output is the strided global field", "statement": "For every decomposition and downsampling factor, the blocks written by the subdomains tile the downsampled global array exactly and element j of the file is the field at global cell j times the factor.", "quantifier": "every decomposition, factor, resolution", "why_tests_cant": "first-cell/ceil arithmetic across all domain offsets", "anchors": ["src/output/writer.cpp:defineMeshLayout", "src/output/writer.cpp:WriteField"]}
{"id": "C38", "title": "Particle moments conserve the total", "statement": "The grid total of a smoothed particle moment equals the sum over live particles of their unsmoothed contribution, for every smoothing order and window, including next to the polar axis.", "quantifier": "every particle position, smoothing order, method and grid size", "why_tests_cant": "continuous positions and edges", "anchors": ["src/kernels/particle_moments.hpp"]}
{"id": "C39", "title": "Moving the window is independent of the decomposition", "statement": "Shifting the simulation window by s cells moves every field value and particle to the cell s lower on the global grid, independent of the decomposition.", "quantifier": "every shift, decomposition and field content", "why_tests_cant": "stale cells appear only for shifts larger than the ghost width on interior domains", "anchors": ["src/archetypes/moving_window.h"]}
{"id": "C40", "title": "Region queries on a mesh return the intersection", "statement": "Intersecting a mesh with a box returns, per dimension, the overlap of the extents, and the corresponding cell range covers exactly the cells of the overlap.", "quantifier": "every mesh extent and box, including open-ended ranges", "why_tests_cant": "open-ended ranges combine with finite ones in each dimension", "anchors": ["src/framework/domain/mesh.h:Intersection", "src/framework/domain/mesh.h:ExtentToRange"]}
{"id": "C41", "title": "The parameter store returns what was last set", "statement": "Reading a parameter returns the last value set under that name; reading a missing parameter is an error unless a default is given; promised parameters must be fulfilled before they are read.", "quantifier": "every sequence of set/promise/get operations", "why_tests_cant": "history property", "anchors": ["src/global/utils/param_container.h"]}
{"id": "C42", "title": "Coordinate conversions are mutually inverse", "statement": "For every supported metric, converting code coordinates to physical ones and back is the identity on the domain, and cell boundaries map to the configured extents.", "quantifier": "every resolution, extent, stretching parameter and coordinate", "why_tests_cant": "continuous input with logarithmic and polynomial stretching", "anchors": ["src/metrics/minkowski.h", "src/metrics/spherical.h", "src/metrics/qspherical.h"]}
{"id": "C43", "title": "Vector basis transformations are consistent", "statement": "Transforming vector components between contravariant, covariant, tetrad and Cartesian bases and back is the identity, and all routes agree on the norm.", "quantifier": "every position and vector for every diagonal metric", "why_tests_cant": "continuous input", "anchors": ["src/metrics/minkowski.h:transform", "src/metrics/spherical.h:transform", "src/metrics/qspherical.h:transform"]}
{"id": "C44", "title": "The distributed field solver computes the single-domain solution", "statement": "Starting from the same global fields, any number of field-solver steps (with their ghost exchanges) on any decomposition of a periodic box gives at every cell the value of the single-domain solution.", "quantifier": "every decomposition, number of steps and initial field", "why_tests_cant": "inductive over steps and over all layouts", "anchors": ["src/engines/srpic/srpic.hpp:step_forward", "src/kernels/faraday_mink.hpp", "src/kernels/ampere_mink.hpp", "src/framework/domain/metadomain_comm.cpp"]}
{"id": "C45", "title": "Piston reflection conserves energy in the piston frame", "statement": "A particle reflected by a moving piston has the same Lorentz factor in the piston rest frame before and after, its transverse velocity is unchanged and it ends outside the piston.", "quantifier": "every piston speed below light speed and every particle velocity", "why_tests_cant": "continuous input", "anchors": ["src/archetypes/piston.h"]}
{"id": "C46", "title": "Radiative drags are independent of each other's presence", "statement": "When both synchrotron and inverse-Compton drag are enabled for a species, the velocity change is the sum of the two individual changes.", "quantifier": "every velocity and field", "why_tests_cant": "only visible with both flags on", "anchors": ["src/kernels/pushers/sr.hpp:synchrotronDrag", "src/kernels/pushers/sr.hpp:inverseComptonDrag"]}
{"id": "C47", "title": "Bulk-velocity boosts and rotations of sampled velocities are isometries", "statement": "Rotating a sampled four-velocity towards a drift direction preserves its magnitude and maps the first axis to the drift direction, for every unit drift direction.", "quantifier": "every unit direction and velocity", "why_tests_cant": "division by (1 + first component) near the antipode", "anchors": ["src/archetypes/energy_dist.h"]}
{"id": "C48", "title": "The GR field update keeps the documented time levels", "statement": "After every step of the GR engine each field array is at the time level the next step assumes, and every update is centred on its source term.", "quantifier": "every number of steps", "why_tests_cant": "inductive over steps; a swapped array is invisible locally", "anchors": ["src/engines/grpic/grpic.hpp:step_forward"]}
{"id": "C49", "title": "The GR particle push updates the azimuth", "statement": "In axisymmetric GR runs the stored azimuth of a particle advances by the azimuthal velocity times the time step.", "quantifier": "every particle state", "why_tests_cant": "azimuth does not feed back into the 2D dynamics, so tests do not see it", "anchors": ["src/kernels/pushers/gr.hpp:UpdatePhi"]}
{"id": "C50", "title": "Accepted Cartesian boundary specifications are paired-periodic", "statement": "Whenever the input's boundary specification for a Cartesian grid is accepted, each dimension is either periodic on both sides or on neither.", "quantifier": "every boundary specification", "why_tests_cant": "combinatorial input validation", "anchors": ["src/framework/parameters/grid.cpp"]}
{"id": "C51", "title": "Run length is independent of interruptions", "statement": "A run resumed from checkpoints any number of times executes exactly the same total sequence of step indices after the checkpoint as the uninterrupted run and stops at the same step.", "quantifier": "every interruption pattern", "why_tests_cant": "history property", "anchors": ["src/engines/engine.hpp:run", "src/framework/simulation.cpp"]}
{"id": "C52", "title": "Emission of photons conserves momentum", "statement": "When a photon is emitted, the momentum lost by the emitting particle equals the weighted momentum of the photon, and the photon is written to a fresh slot with a fresh identifier.", "quantifier": "every particle, field and random draw", "why_tests_cant": "continuous input", "anchors": ["src/archetypes/emission/compton.h", "src/archetypes/emission/synchrotron.h"]}
{"id": "C53", "title": "Field-solver loops do not depend on the execution order", "statement": "The magnetic, electric and current-addition updates produce the same fields in whatever order (or interleaving of whole cell updates) the cells of the grid are processed.", "quantifier": "every field content, coefficient set, set of cells and every permutation of the cells", "why_tests_cant": "the order is chosen by the parallel runtime; a test observes only a few schedules", "anchors": ["src/kernels/faraday_mink.hpp", "src/kernels/ampere_mink.hpp", "src/kernels/faraday_sr.hpp", "src/kernels/ampere_sr.hpp", "src/kernels/faraday_gr.hpp", "src/kernels/ampere_gr.hpp"]}
{"id": "C54", "title": "The guiding-centre push gives a consistent, subluminal drift", "statement": "When the electric field is weaker than the magnetic field, the guiding-centre update gives a four-velocity whose component along the magnetic field is the old one accelerated by the parallel electric field and force, and whose remaining part is the drift velocity times the Lorentz factor of the result; the drift is perpendicular to both fields, slower than light, and equal to E x B / B^2 for perpendicular fields.", "quantifier": "every four-velocity, force and pair of fields with |E| < |B|", "why_tests_cant": "continuous input with a series branch for weak drifts", "anchors": ["src/kernels/pushers/sr.hpp:velocityEMPush_GCA"]}
{"id": "C55", "title": "The field solver conserves energy in vacuum and is stable below the Courant limit", "statement": "On a periodic box without currents, with the default stencil, the discrete electromagnetic energy (both fields taken at the same time, minus a term of second order in the time step) is the same after every step; if the number of dimensions times (dt/dx)^2 is below one, the fields stay bounded by the initial energy for ever, on any decomposition.", "quantifier": "every initial field, box, decomposition, time step and number of steps", "why_tests_cant": "invariant over unboundedly many steps and arbitrary fields", "anchors": ["src/kernels/faraday_mink.hpp", "src/kernels/ampere_mink.hpp", "src/engines/srpic/fieldsolvers.h", "src/engines/srpic/srpic.hpp:step_forward"]}
{"id": "C57", "title": "All ranks take the same output decisions", "statement": "At every step either all ranks write a given output (or checkpoint) or none does, so that the collective write operations match.", "quantifier": "every number of ranks, every skew between their clocks, every sequence of steps", "why_tests_cant": "Depends on the relation between the clocks of different ranks at the moment of the query; a test sees one interleaving.", "anchors": ["src/global/utils/tools.h: Tracker::shouldWrite", "src/output/checkpoint.cpp: Writer::shouldSave", "src/framework/domain/metadomain_chckpt.cpp: WriteCheckpoint"]}
{"id": "C58", "title": "The reported bulk velocity is a mean of particle velocities", "statement": "In every cell with mass the bulk velocity written to the output lies between the smallest and largest velocity of the particles of the selected species, so it never exceeds the speed of light, on every decomposition.", "quantifier": "every set of particles, smoothing, decomposition and schedule", "why_tests_cant": "ranges over all particle sets and needs numerator and denominator to use the same weights after synchronisation", "anchors": ["src/kernels/particle_moments.hpp:NormalizeVectorByRho_kernel", "src/framework/domain/metadomain_io.cpp:ComputeMoments"]}
{"id": "C59", "title": "Matching-layer thicknesses are those of the input", "statement": "The thickness of the absorbing field layers used in each dimension is the one given in the input; a malformed specification is reported instead of being replaced silently.", "quantifier": "every form of the input entry and every number of dimensions", "why_tests_cant": "combinatorial input with fallbacks nested in exception handlers", "anchors": ["src/framework/parameters/grid.cpp:Boundaries::read"]}
{"id": "C60", "title": "The area of the polar cells is the integral of the volume element", "statement": "The area that the field solver uses for the half cells touching the polar axis equals the integral of the metric's volume element over that half cell, for every resolution in angle.", "quantifier": "every extent, resolution, stretching parameter and radius", "why_tests_cant": "a separate branch is taken below a small angle, which no test grid is fine enough to reach", "anchors": ["src/metrics/spherical.h:polar_area", "src/metrics/qspherical.h:polar_area", "src/metrics/kerr_schild.h:polar_area", "src/metrics/qkerr_schild.h:polar_area"]}
{"id": "C61", "title": "The Kerr-Schild metrics describe a black hole", "statement": "At every point off the axis the components offered by the GR metrics measure the interval of a black hole of unit mass and the configured spin (flat space for the metric without a hole); contravariant components invert covariant ones, in space and in space-time; lapse, shift and spatial metric are those of the space-time metric; the volume element is the root of the determinant.", "quantifier": "every spin, extent, resolution, stretching, position and velocity", "why_tests_cant": "identities between dozens of long closed formulas over continuous positions; a test evaluates them at a few points to a tolerance", "anchors": ["src/metrics/kerr_schild.h", "src/metrics/kerr_schild_0.h", "src/metrics/qkerr_schild.h"]}
{"id": "C62", "title": "Metric derivatives are the derivatives of the metric", "statement": "The derivatives of lapse, shift and inverse spatial metric that the GR metrics report, and that move the particles, are the derivatives of the components the same metric reports, up to the rounding of small values to zero.", "quantifier": "every spin, extent, resolution, stretching and position off the axis", "why_tests_cant": "finite differences in tests only see errors above their tolerance, at a few positions and parameters", "anchors": ["src/metrics/kerr_schild.h:dr_h11", "src/metrics/kerr_schild_0.h", "src/metrics/qkerr_schild.h:dr_h22", "src/metrics/qkerr_schild.h:dt_h22"]}
{"id": "C63", "title": "The energy component completes a four-velocity", "statement": "Given covariant spatial components, the time component computed by a GR metric makes a future-directed four-velocity of the requested norm, and is the only value that does.", "quantifier": "every spin, position, velocity and norm", "why_tests_cant": "the choice of root matters everywhere, inside the ergosphere included", "anchors": ["src/metrics/kerr_schild.h:u_0", "src/metrics/kerr_schild_0.h:u_0", "src/metrics/qkerr_schild.h:u_0"]}
{"id": "C64", "title": "The reported smallest cell size limits every particle", "statement": "The smallest cell size from which the time step is derived is the minimum over all cells, and no particle or photon crosses more than one cell of its place in that time (times the speed of light).", "quantifier": "every grid, spin, stretching, cell and velocity", "why_tests_cant": "a minimum over arbitrarily many cells and a bound for all velocities", "anchors": ["src/metrics/kerr_schild.h:find_dxMin", "src/metrics/kerr_schild_0.h:find_dxMin", "src/metrics/qkerr_schild.h:find_dxMin", "src/metrics/spherical.h:find_dxMin", "src/metrics/qspherical.h:find_dxMin"]}
{"id": "C67", "title": "The GR field update does not depend on where subdomain borders lie", "statement": "Splitting a GR run into subdomains does not change the fields: every field kernel, launched on a subdomain after its ghost cells were exchanged, leaves in its cells what the undivided run leaves there, and every kernel of the step does follow such an exchange.", "quantifier": "every subdomain, cell, metric, memory content, loop order and number of steps", "why_tests_cant": "the error needs rotation, several subdomains and changing fields at once, and is of first order in the time step", "anchors": ["src/engines/grpic/grpic.hpp:step_forward", "src/engines/grpic/utils.h:TimeAverageDB", "src/engines/grpic/fieldsolvers.h", "src/kernels/aux_fields_gr.hpp"]}
{"id": "C65", "title": "GR particles follow geodesics", "statement": "In a GR step the covariant velocity and the position of a particle change by the time step times the derivatives of the energy at infinity (Hamilton's equations of geodesic motion), taken half way through the step, in each metric.", "quantifier": "every metric, spin, grid, position off the axis, velocity, time step and number of iterations, massive or not", "why_tests_cant": "a wrong metric derivative bends orbits slightly and only where the grid is stretched; equality with derivatives must hold at every point", "anchors": ["src/kernels/pushers/gr.hpp:GeodesicMomentumPush", "src/kernels/pushers/gr.hpp:GeodesicCoordinatePush"]}
{"id": "C66", "title": "GR pusher: conserved quantities and work of the fields", "statement": "The angular momentum about the axis of a photon, or of a massive particle without fields, is exactly constant over any number of steps; a magnetic field does no work in the local frame; an electric field alone kicks by charge times field times lapse times time step; without fields the kicks do nothing.", "quantifier": "every metric, particle, field, time step and number of steps", "why_tests_cant": "exact conservation over unboundedly many steps", "anchors": ["src/kernels/pushers/gr.hpp:EMHalfPush", "src/kernels/pushers/gr.hpp:operator()"]}
{"id": "C68", "title": "GR particles at boundaries", "statement": "A GR step leaves a particle where the motion took it: mirrored with reversed angular velocity at the axis, removed exactly when it ended beyond a radial boundary that absorbs, tagged for the neighbour it went to otherwise; every accepted boundary condition is applied; dead particles are untouched.", "quantifier": "every particle, metric, grid size, boundary conditions, with and without MPI", "why_tests_cant": "the combinations of edges, boundary kinds and builds are not covered, and the reaction to unsupported kinds is silent", "anchors": ["src/kernels/pushers/gr.hpp:boundaryConditions", "src/kernels/pushers/context.h:PusherBoundaries", "src/engines/grpic/particle_pusher.h"]}
{"id": "C69", "title": "GR auxiliary fields", "statement": "The fields E and H that drive the GR field update are alpha D + beta x B and alpha B - beta x D at the places of their own components, up to an error that vanishes without a black hole and is of second order in the radial cell size otherwise.", "quantifier": "every metric of the GR engine, grid, field configuration, active cell, component and order of the threads", "why_tests_cant": "an identity for arbitrary fields, metrics and cells; a misplaced average or a wrong sign shows only as a loss of accuracy", "anchors": ["src/kernels/aux_fields_gr.hpp:ComputeAuxE_kernel", "src/kernels/aux_fields_gr.hpp:ComputeAuxH_kernel"]}
{"id": "C73", "title": "Current filter at walls and axes", "statement": "One pass of the current filter acts at a conducting wall as on the currents continued by their images (even across the wall, odd along it) and at a polar axis as on the currents continued across the axis, without reading anything behind the wall or axis.", "quantifier": "every dimension, direction and side of the wall, every axis configuration, all currents, every cell and component and every order of the threads", "why_tests_cant": "holds for arbitrary currents in every cell next to a boundary; uniform test currents hide wrong weights and reads behind the wall", "anchors": ["src/kernels/digital_filter.hpp:DigitalFilter_kernel", "src/engines/srpic/currents.h:CurrentsFilter"]}
{"id": "C71", "title": "Vector fields in the output", "statement": "Every vector field written to the output holds, in every active cell, the components of the requested field interpolated from their staggered places to the centre of the cell and transformed there to the output basis; fields affine in each coordinate are reproduced exactly, no new extrema appear, and the result does not depend on the decomposition.", "quantifier": "1D to 3D, both engines, every field (E, B, D, H, J), all field values, metrics, decompositions and thread orders", "why_tests_cant": "must hold for arbitrary fields in every cell, including cells whose neighbours are ghost cells, and for every order of the threads", "anchors": ["src/kernels/fields_to_phys.hpp:FieldsToPhys_kernel", "src/output/fields.cpp:OutputField", "src/framework/domain/metadomain_io.cpp:Metadomain::Write"]}
{"id": "C72", "title": "Vector potential in the output", "statement": "The vector potential written by a 2D general-relativistic run is, in every active cell, the integral of sqrt(h) B^1 along the second direction over the undivided grid, whatever the decomposition and however the ranks interleave; the exchange of partial sums never deadlocks; the integral is exact for potentials quadratic in the coordinate.", "quantifier": "all grids of ranks, block sizes, fields, metrics and interleavings of the ranks", "why_tests_cant": "depends on the decomposition, on the relative speed of the ranks and on the field values", "anchors": ["src/framework/domain/metadomain_io.cpp:ComputeVectorPotential", "src/framework/domain/metadomain_io.cpp:CommunicateVectorPotential", "src/framework/domain/metadomain_io.cpp:ExtractVectorPotential"]}
{"id": "C70", "title": "Statistics file", "statement": "Every column of the statistics file is the volume average over the whole grid of the quantity in its name (squares of the field components, Poynting flux, J.E, particle density, mass, charge, stress), independent of the decomposition and of the order of the reductions; Npart is the number of live particles; each row has as many entries as the header.", "quantifier": "all grids, decompositions, field values, metrics, particles, species lists and reduction orders", "why_tests_cant": "sums over arbitrarily many cells and ranks for arbitrary field values and particles", "anchors": ["src/kernels/reduced_stats.hpp:ReducedFields_kernel", "src/kernels/reduced_stats.hpp:ReducedParticleMoments_kernel", "src/framework/domain/metadomain_stats.cpp:ReduceFields", "src/framework/domain/metadomain_stats.cpp:ComputeMoments", "src/output/stats.cpp:writeHeader"]}
{"id": "C74", "title": "Matching layers", "statement": "In a matching boundary every field component the user prescribes is moved from its value towards the prescribed one, by a weight that is complete at the edge of the grid, falls monotonically inwards and is below one percent where the layer ends; repeated passes converge geometrically; no other cell or component changes; and the result is that of the undivided grid in every cell of every subdomain, ghost cells included.", "quantifier": "all fields, prescribed functions, thicknesses, sides, grid sizes, decompositions and execution orders", "why_tests_cant": "depends on the thickness relative to the subdomains, on the decomposition and on arbitrary user functions", "anchors": ["src/kernels/fields_bcs.hpp:MatchBoundaries_kernel", "src/engines/srpic/fields_bcs.h:MatchFieldsIn", "src/engines/grpic/fields_bcs.h:MatchFieldsIn", "src/framework/domain/mesh.h:ExtentToRange"]}
{"id": "C75", "title": "Fields at the polar axis", "statement": "The axis boundary condition fills the first row beyond the axis with the mirror image of the field, with the sign each component takes when it passes the axis, and zeroes the components that vanish on it; it is idempotent, independent of the execution order and of the decomposition, and touches nothing else; a particle next to the axis then feels the field continued across the axis.", "quantifier": "all fields, grid sizes, decompositions, execution orders, particle positions on the grid's side of the axis and shape orders", "why_tests_cant": "depends on the field values, on the decomposition and on where a particle is relative to the axis", "anchors": ["src/kernels/fields_bcs.hpp:AxisBoundaries_kernel", "src/engines/srpic/fields_bcs.h:AxisFieldsIn", "src/engines/grpic/fields_bcs.h:AxisFieldsIn"]}
{"id": "C76", "title": "Particle atmosphere and density-driven injection", "statement": "Injection with a spatial distribution adds pairs of particles at the same place with the same weight, so that no charge is deposited anywhere; each cell receives the requested number rounded up or down and exact on average. The atmosphere boundary condition leaves cells with at least nine tenths of the target density alone, brings all others to the target within two particles, and adds nothing when repeated. The target is in hydrostatic balance with the gravity the pusher applies, over the same extent.", "quantifier": "all species contents, target parameters, random numbers, schedules of the moment and injection kernels, dimensions, Cartesian and curvilinear volume elements", "why_tests_cant": "depends on the random numbers, on the order of atomic increments and on the particles already present", "anchors": ["src/kernels/injectors.hpp:NonUniformInjector_kernel", "src/archetypes/particle_injector.h:InjectNonUniform", "src/archetypes/particle_injector.h:AtmosphereDensityProfile", "src/archetypes/spatial_dist.h:Replenish", "src/engines/srpic/particles_bcs.h:AtmosphereParticlesIn", "src/engines/srpic/utils.h:GetAtmosphereExtent", "src/kernels/pushers/sr.hpp:getExternalForce"]}
{"id": "C77", "title": "Fields enforced inside an atmosphere", "statement": "The atmosphere boundary condition writes the user's fields, each component evaluated at its own position on the staggered grid, at every element on the surface or outside it and nowhere else; in ghost cells too, in any order of cells and sides, however the grid is divided. Repeating it changes nothing. The fields end where the particles are held.", "quantifier": "all user fields, component sets, tags, field contents, metrics (kernel), Cartesian grids in one to three dimensions, divisions, thread schedules", "why_tests_cant": "depends on the division into subdomains, on the schedule and on where the buffer meets the borders between subdomains", "anchors": ["src/kernels/fields_bcs.hpp:EnforcedBoundaries_kernel", "src/engines/srpic/fields_bcs.h:AtmosphereFieldsIn", "src/engines/srpic/utils.h:GetAtmosphereExtent", "src/framework/domain/mesh.h:ExtentToRange"]}
{"id": "C78", "title": "Horizon and absorbing boundaries in general relativity", "statement": "At the horizon the rows of the fields inside the first row not touched by the current filters become copies of that row, in every column, for the components asked for, and nothing else changes, however the grid is divided and whatever the schedule; the same happens to the auxiliary fields. Near the outer edge the currents are multiplied by a weight between zero and one that vanishes at the edge. Each side gets the condition configured for it.", "quantifier": "all field and current contents, tags, numbers of filter passes, ghost cells, grid sizes, divisions, schedules, radial coordinates, assignments of conditions to sides", "why_tests_cant": "depends on shape order, filters, division and schedule", "anchors": ["src/kernels/fields_bcs.hpp:HorizonBoundaries_kernel", "src/kernels/fields_bcs.hpp:AbsorbCurrents_kernel", "src/engines/grpic/fields_bcs.h:HorizonFieldsIn", "src/engines/grpic/fields_bcs.h:MatchFieldsIn", "src/engines/grpic/fields_bcs.h:FieldBoundaries"]}
{"id": "C79", "title": "Fixed fields at a boundary", "statement": "With fixed-field boundaries every component the user fixes and that is being updated takes the user's value in all cells beyond that side, ghost cells of the other directions included, and nothing else changes, however the grid is divided; applying it again changes nothing; all sides run in one fixed order. The value is the user's in the physical basis.", "quantifier": "all field contents, tags, sides, user functions, ghost widths, grid sizes, divisions, dimensions, assignments of fixed and periodic sides", "why_tests_cant": "depends on the division, on the set of sides and on the user's function", "anchors": ["src/engines/srpic/fields_bcs.h:FixedFieldsIn", "src/engines/srpic/fields_bcs.h:FieldBoundaries"]}
{"id": "C80", "title": "Fields set by the problem generator", "statement": "Initial fields given by a problem generator are stored in every active cell at each component's own position on the staggered grid and in the code's basis, component by component, the same however the grid is divided and whatever the schedule; nothing else changes. A conditional update during the run decides each component from the fields as they were before the update, brought to that component's position.", "quantifier": "all user functions and sets of components, metrics, dimensions, grid sizes, divisions, schedules, field contents", "why_tests_cant": "depends on which functions the generator defines, on the schedule and on the division", "anchors": ["src/archetypes/field_setter.h:SetEMFields_kernel", "src/archetypes/field_setter.h:CustomSetEMFields_kernel", "src/archetypes/utils.h:UpdateEMFields", "src/engines/engine.hpp:init"]}
{"id": "C81", "title": "Output of the divergence of E", "statement": "The divergence of the electric field written to the output is, at every active node, the divergence of the stored field at that node (the flux out of the cell around the node over its volume), the same however the grid is divided, whatever the boundaries and the schedule; on periodic Cartesian grids it changes between outputs exactly by the change of the filtered charge.", "quantifier": "all fields, metrics, dimensions, grid sizes, divisions, boundary conditions, schedules, buffer components, histories of steps", "why_tests_cant": "depends on the division, the schedule and the contents of the ghost cells, and on the resolution", "anchors": ["src/kernels/divergences.hpp:ComputeDivergence_kernel", "src/framework/domain/metadomain_io.cpp:Metadomain::Write"]}
{"id": "C82", "title": "Output of particles", "statement": "The particle output of a species holds, under each variable the species has and no other, one row per particle selected: for tracked species exactly the live particles whose counter is a multiple of the stride, for others every stride-th live particle of each rank. All values of a row belong to the same particle, ranks do not overwrite each other, and nothing depends on the schedule of the threads or the order in which ranks write.", "quantifier": "all contents of the particle arrays, numbers of ranks, dimensions, payloads, strides, schedules, orders of writing, states of the sorted flag", "why_tests_cant": "indices are handed out by atomics, offsets depend on the counts of all ranks, and dead particles appear only after particular histories", "anchors": ["src/framework/containers/particles_io.cpp:Particles::OutputDeclare", "src/framework/containers/particles_io.cpp:Particles::OutputWrite", "src/kernels/prtls_to_phys.hpp:PrtlToPhys_kernel", "src/output/utils/writers.cpp:Write1DArray"]}
{"id": "C83", "title": "Energy spectra", "statement": "Each bin of the energy spectrum of a species holds the total weight of the live particles of all ranks whose energy seen by the local observers lies between the two edges written for it (the first bin also takes all below), every live particle is counted once, and the result does not depend on the schedule or on the division.", "quantifier": "all particles, weights, numbers of ranks, bin counts, ranges, linear and logarithmic bins, both engines, orders of the additions", "why_tests_cant": "energies near the edges, particles at rest and particles above the last edge decide it, together with the order of atomic additions", "anchors": ["src/kernels/particle_moments.hpp:ParticleDistribution_kernel", "src/framework/domain/metadomain_io.cpp:Metadomain::Write", "src/output/writer.cpp:Writer::writeSpectrum"]}
{"id": "C84", "title": "Bulk four-velocity of the GR engine", "statement": "In GR runs the four components of the bulk velocity written for a cell form the four-velocity of a physical observer: unit norm and pointing to the future, in cells with particles as well as in empty ones. It is the direction of the particle flux, reduces to the common velocity of particles that move together, and is the observer at rest in the slices of constant time where there is no (timelike) flux.", "quantifier": "every black hole spin and mesh of the three GR metrics, every cell off the axis, every list of massive and massless particles with any positions, velocities and weights", "why_tests_cant": "The set of velocities of the particles of a cell is unbounded, and the result depends on the metric at the centre and at every particle; the fallback is reached only for extreme velocities.", "anchors": ["src/kernels/particle_moments.hpp: computeEckartVelocityFluxComponent, Normalize4VelocityByNorm_kernel, Transform4VelocitySpatialToPhysical_kernel", "src/framework/domain/metadomain_io.cpp: Metadomain::Write (4-vector output)"]}
{"id": "C85", "title": "Species of the input file", "statement": "Every meaningful list of species in the input file is accepted and each species is then moved as the file says: by the algorithm it names (or the default for its mass), with its charge to mass ratio, emitting into the species it names, and with every parameter that this needs defined. Whatever file is accepted, charged species have mass, only massive ones suffer drag or radiate, features of the special-relativistic engine are not used in the other one, tracked species have room for their labels, and species are numbered from 1 in the order of the file.", "quantifier": "every list of species tables, every spelling of the comma separated lists, both engines, with and without MPI, every number of particles", "why_tests_cant": "The options of several species and of the radiation tables interact through a shared set of promised parameters; the combinations and the strings are unbounded.", "anchors": ["src/framework/parameters/particles.cpp: getPusherFlags, getRadiativeDragFlags, getEmissionPolicyFlag, GetParticleSpecies", "src/framework/parameters/parameters.cpp: SimulationParams::setImmutableParams, setMutableParams", "src/framework/parameters/extra.cpp: Extra::read, Extra::setParams", "src/engines/srpic/particle_pusher.h: ParticlePush", "src/kernels/pushers/sr_policies.h: MakePusherPolicyEmission, MakePusherPolicy", "src/engines/grpic/particle_pusher.h: ParticlePush"]}
{"id": "C86", "title": "Sampled velocities follow the named distribution", "statement": "A power-law sampler gives particles whose gamma - 1 is a power law between the two limits, and a Maxwellian sampler gives particles whose momentum has the Juttner-Synge density at the given temperature; both have no preferred direction, the rejection loop ends with the first proposal that is accepted whatever the random numbers are, and a drifting Maxwellian is the boosted one, each velocity weighted by its change of energy.", "quantifier": "every sequence of random numbers, every temperature, every drift, every pair of limits and every index of the power law", "why_tests_cant": "The claim is about distributions and about a loop without a bound on its turns; a test can only draw finitely many samples of a few parameters.", "anchors": ["src/archetypes/energy_dist.h: Powerlaw::operator(), JuttnerSinge, Maxwellian::operator()"]}
{"id": "C87", "title": "Requested output quantities and the datasets written for them", "statement": "Every spelling of a quantity in the output lists, with an index and with any list of species behind it, is read as that quantity with its components and those species; its datasets are named after quantity, component and species, two different ones never share a name, a custom field never takes the name of a built-in one, no request is lost when the lists of quantities and of custom fields are put together, and each output step writes exactly the datasets that were defined.", "quantifier": "every engine, every pair of lists of names, every spelling in small or capital letters, every index, every list of species numbers from 1 to 255", "why_tests_cant": "Names form an infinite set and collisions depend on pairs of whole lists; a test can try only some of them.", "anchors": ["src/output/utils/interpret_prompt.cpp: InterpretSpecies, InterpretComponents", "src/output/fields.cpp: OutputField::OutputField", "src/output/fields.h: OutputField::name", "src/output/writer.cpp: Writer::defineFieldOutputs, Writer::writeField", "src/framework/domain/metadomain_io.cpp: Metadomain::InitWriter, Metadomain::Write"]}
{"id": "C88", "title": "Total current and the meaning of the input scales", "statement": "For every shape order and number of dimensions the current deposited in all nodes together is the sum over the particles of charge times velocity, whatever the order of the additions; the field summed over the nodes then changes by that sum times the same coefficient in every engine, free of the volume of the cell. Consequently larmor0 is the gyration radius of a particle of unit momentum and charge-to-mass ratio across a unit field, skindepth0 sets the frequency at which a uniform plasma oscillates, sigma0 is the square of the ratio of the two frequencies and converts field energy to particle energy, and an external current acts as so many particles.", "quantifier": "every positive larmor0, skindepth0, ppc0 and cell volume, every time step, order 0-11, dimension 1-3, set of particles moving by less than a cell, schedule of the additions, field, mixture of species of any charge, mass and density, and momentum", "why_tests_cant": "the statement is about sums over any number of particles and nodes and about all scales at once; a run at one set of scales cannot tell a wrong power of ppc0 or of the volume from a choice of units", "anchors": ["src/framework/parameters/parameters.cpp", "src/engines/srpic/fieldsolvers.h", "src/engines/grpic/fieldsolvers.h", "src/kernels/ampere_mink.hpp", "src/kernels/ampere_sr.hpp", "src/kernels/ampere_gr.hpp", "src/kernels/currents_deposit.hpp", "src/kernels/pushers/sr.hpp"]}
{"id": "C89", "title": "Radiation as drag and as emission", "statement": "A process of radiation can be switched on for a species as a continuous drag or as emission of photons. On average over the random numbers, emission with recoil slows a particle as the drag of the same process does, and takes away the corresponding energy, whatever gamma_qed and the weight of the photons.", "quantifier": "every gamma_rad, gamma_qed, photon weight, time step, charge, mass, fields and velocities; both processes; the mean over a random number uniform in [0,1)", "why_tests_cant": "the statement is about a mean over random numbers for all parameters; a test samples a few", "anchors": ["src/framework/parameters/extra.cpp", "src/kernels/pushers/context.h", "src/kernels/pushers/sr.hpp", "src/archetypes/emission/compton.h", "src/archetypes/emission/synchrotron.h"]}
{"id": "C90", "title": "Output schedule, downsampling, species and command line as asked", "statement": "For each kind of output the run writes at exactly the steps, or at the spacing in time, that the input file asks for: the category's own time or number of steps if it has one, otherwise the common ones; a category that is switched off writes nothing. The factors of downsampling used are those asked for, a scalar counting for all directions, and a file that asks for something impossible is refused. The file given after -input is the one that is read, and a run resumes exactly when one of the flags for it is given.", "quantifier": "every set of entries present or absent, every sequence of steps and times, every number of directions, every list of arguments", "why_tests_cant": "the entries combine with defaults in many ways, and the answer concerns whole runs of any length", "anchors": ["src/framework/parameters/output.cpp", "src/framework/domain/metadomain_io.cpp", "src/output/writer.cpp", "src/global/utils/cargs.cpp", "src/framework/simulation.cpp"]}
{"id": "C91", "title": "The report of a step says what happened", "statement": "The report printed during a run is right: durations are written in the usual units without loss beyond the smaller one, the average is over the last steps, the bar is filled in proportion, the remaining time is the number of steps left times the average, the shares of the timers are percentages that add up to 100 but for rounding, a perfectly balanced run shows no imbalance, and the fraction of the particle arrays in use is right.", "quantifier": "every duration, every history of steps, every number of steps, ranks and timers with any measured times", "why_tests_cant": "the numbers range over all durations and all ranks; a test looks at a few strings", "anchors": ["src/global/utils/progressbar.h", "src/global/utils/progressbar.cpp", "src/global/utils/timer.cpp", "src/global/utils/tools.h", "src/global/utils/diag.cpp", "src/engines/engine.hpp"]}
{"id": "C92", "title": "Uniform injection fills the requested region with the requested density", "statement": "Injecting a uniform density into a box adds, for each of the two species, half of the density times the particles per cell of unit density times the number of cells of the box, rounded; every particle lies inside the box and in a cell of the subdomain that holds it, the two particles of a pair at the same place with the same weight; on curved coordinates the weights make the density uniform in physical volume; the number does not depend on how the grid is cut into subdomains; a call without the weights the coordinates need is refused.", "quantifier": "every number of dimensions, box (also with open or missing ends, or ends in the wrong order), density, metric with increasing conversions, decomposition and sequence of random numbers", "why_tests_cant": "boxes, decompositions and random numbers range over infinite sets; a test draws a few particles in one box", "anchors": ["src/archetypes/particle_injector.h", "DeduceRegion", "ComputeNumInject", "InjectUniform", "src/kernels/injectors.hpp", "UniformInjector_kernel"]}
{"id": "C93", "title": "The tables of the report are printed and aligned, whatever their contents", "statement": "Every column of a table in the report starts or ends where it should, counted in characters and not in bytes, and printing the report of a step never ends the run: in particular not because of the label a user gave to a species.", "quantifier": "every list of columns, every text in UTF-8, every label, number of particles and step", "why_tests_cant": "texts and labels range over an infinite set; a test prints a few", "anchors": ["src/global/utils/formatting.h", "alignedTable", "strlenUTF8", "repeat", "src/global/utils/diag.cpp", "printDiagnostics"]}
{"id": "C94", "title": "All ranks ask for the same number of output aggregators", "statement": "With a number of aggregators per node in the input, every rank of a job asks the output library for that number times the number of nodes; without one the choice is left to the library; engines that do not know these parameters, whatever the case of the letters of their name, are left alone.", "quantifier": "every distribution of ranks over nodes, every number per node, every engine name", "why_tests_cant": "jobs with many and unequal nodes are not available to a unit test", "anchors": ["src/output/utils/tuning.cpp", "TotalAggregators", "ApplyBp5Tuning", "src/output/utils/tuning.h"]}
{"id": "C95", "title": "A moment over chosen species is their sum and leaves the rest of the buffer alone", "statement": "Computing a moment over a list of species puts the sum of what the particles of these species contribute into the chosen component of the buffer, whatever the order of the species and of the threads, and keeps the other components.", "quantifier": "every list of species, every set of particles, every order of execution, every content of the buffer", "why_tests_cant": "orders of execution and sets of particles are unbounded", "anchors": ["src/archetypes/utils.h", "ComputeMomentWithSpecies", "src/kernels/particle_moments.hpp"]}
