{"id": "C01", "title": "A lattice never holds the same bond twice", "statement": "After any sequence of lattice-building calls (adding sublattices, aliases, hopping energies and hoppings), no two stored hopping terms, in the same or in different families, describe the same physical bond (equal, or equal after reversing direction and negating the relative cell index), and no term connects a sublattice to itself in the same cell. A call that would create such a term is rejected.", "quantifier": "every finite sequence of lattice API calls with arbitrary names, energies and relative indices", "why_tests_cant": "Tests add a handful of duplicate pairs; the invariant ranges over all call histories and all term pairs across families.", "anchors": ["cppcore/src/Lattice.cpp:Lattice::add_hopping", "cppcore/include/Lattice.hpp:HoppingTerm::operator=="]}
{"id": "C02", "title": "Every lattice built through the API can be turned into a model", "statement": "For every lattice produced by successful API calls, sublattice and hopping-family identifiers are dense and unique, and asking for the site and hopping registries (which the model constructor does) succeeds and maps each non-alias sublattice name and each family name to its own energy matrix.", "quantifier": "every finite sequence of successful lattice API calls, including aliases in any order and aliases of aliases", "why_tests_cant": "Tests always declare aliases after all sublattices; the order of declarations is unbounded.", "anchors": ["cppcore/src/Lattice.cpp:Lattice::site_registry", "cppcore/src/Lattice.cpp:Lattice::hopping_registry", "cppcore/src/Lattice.cpp:Lattice::add_alias", "cppcore/src/Model.cpp:Model::Model"]}
{"id": "C03", "title": "A rejected lattice call changes nothing", "statement": "When any lattice-building call raises an exception the lattice is exactly as it was before the call.", "quantifier": "every lattice state reachable by API calls and every call that raises", "why_tests_cant": "Tests check that the exception is raised, not that the state is untouched, and only for a few states.", "anchors": ["cppcore/src/Lattice.cpp:Lattice::add_hopping", "cppcore/src/Lattice.cpp:Lattice::register_hopping_energy", "cppcore/src/Lattice.cpp:Lattice::add_sublattice"]}
{"id": "C04", "title": "The neighbour lists used to build systems are symmetric", "statement": "For every lattice, the optimised unit cell lists every sublattice exactly once, grouped by number of orbitals and then by alias group, and each bond term appears once as a forward entry on its source and once as a reversed conjugate entry on its destination; hence site B is listed as neighbour of site A exactly as many times as A is listed as neighbour of B.", "quantifier": "every lattice (any number of sublattices, orbitals, aliases, families and terms)", "why_tests_cant": "Symmetry must hold for all unit cells; a test fixes a few lattices.", "anchors": ["cppcore/src/Lattice.cpp:OptimizedUnitCell::OptimizedUnitCell", "cppcore/include/Lattice.hpp:OptimizedUnitCell"]}
{"id": "C05", "title": "Cell coordinates and array positions of sites agree", "statement": "Within the rectangular block of unit cells, (cell index, sublattice) and array index correspond one-to-one; iterating over all sites, over a spatial slice, or over one sublattice visits exactly the intended sites, each once, in increasing array order (within the slice), and every position array entry is the geometric position of its site.", "quantifier": "every block size, every sublattice count, every in-range slice", "why_tests_cant": "All sizes and slices are needed; off-by-one errors only appear at particular extents.", "anchors": ["cppcore/include/system/Foundation.hpp:Site::reset_idx", "cppcore/include/system/Foundation.hpp:Foundation::Iterator", "cppcore/include/system/Foundation.hpp:SpatialSliceIterator", "cppcore/src/system/Foundation.cpp:generate_positions"]}
{"id": "C06", "title": "Dangling-site removal is complete, minimal and order independent", "statement": "After trimming with a minimum neighbour count m, the surviving sites form the largest subset of the initially valid sites in which every site keeps at least m surviving neighbours (no site with fewer remains, and no site is removed unless forced). The result does not depend on site numbering or traversal order, and the recursive procedure always terminates.", "quantifier": "every bond graph, every initial validity pattern, every m", "why_tests_cant": "The cascade depth and shape of the graph are unbounded; tests look at a few shapes.", "anchors": ["cppcore/src/system/Foundation.cpp:remove_dangling", "cppcore/src/system/Foundation.cpp:clear_neighbors", "cppcore/src/system/Foundation.cpp:count_neighbors"]}
{"id": "C07", "title": "Final site numbering is dense and consistent with site data", "statement": "The built system numbers exactly the valid sites 0..n-1 in block order; position i and sublattice label i of the system are those of the same site, and the run-length-encoded sublattice table decompresses to exactly that labelling, is sorted by orbital count and never triggers the internal 'should never happen' error.", "quantifier": "every lattice, every block, every validity pattern", "why_tests_cant": "The correspondence must hold for every validity mask; tests compare sizes of small examples.", "anchors": ["cppcore/src/system/Foundation.cpp:Foundation::get_finalized_indices", "cppcore/src/system/System.cpp:populate_system", "cppcore/src/system/CompressedSublattices.cpp:CompressedSublattices::add", "cppcore/src/system/CompressedSublattices.cpp:CompressedSublattices::verify"]}
{"id": "C08", "title": "A finite system contains each bond exactly once and nothing else", "statement": "For every pair of valid sites in the block related by a lattice bond term (destination cell = source cell + relative index, matching sublattices), the system stores exactly one hopping (source index, destination index) in that term's family; no other hopping is stored.", "quantifier": "every lattice satisfying the no-duplicate rule, every block and validity pattern", "why_tests_cant": "Completeness and uniqueness quantify over all site pairs of arbitrarily large systems.", "anchors": ["cppcore/src/system/System.cpp:populate_system", "cppcore/include/system/Foundation.hpp:Site::for_each_neighbor"]}
{"id": "C09", "title": "Periodic boundaries contain every bond to every periodic image exactly once", "statement": "With translational symmetry, for every valid site, every lattice bond term and every non-zero lattice translation by whole periods, if the bond leads from the translated image of that site to a valid site of the periodic cell, then exactly one boundary with exactly that shift stores exactly one hopping for it.", "quantifier": "every lattice, every set of enabled directions, every period length, every validity pattern", "why_tests_cant": "Depends on the interplay of bond range, period and block size, an unbounded family; tests use nearest neighbours and period one.", "anchors": ["cppcore/src/system/System.cpp:populate_boundaries", "cppcore/src/system/Symmetry.cpp:TranslationalSymmetry::translations", "cppcore/src/system/Symmetry.cpp:TranslationalSymmetry::area", "cppcore/src/system/Symmetry.cpp:make_masks"]}
{"id": "C10", "title": "Building with a translation period never reads outside the site block", "statement": "Applying a translational symmetry and collecting boundary hoppings only accesses sites inside the allocated block.", "quantifier": "every block size, every period (also longer than the shape)", "why_tests_cant": "Out-of-range reads are silent in release builds and depend on the size/period relation.", "anchors": ["cppcore/src/system/Symmetry.cpp:TranslationalSymmetry::area", "cppcore/src/system/System.cpp:populate_boundaries", "cppcore/include/detail/slice.hpp:SliceIndex"]}
{"id": "C11", "title": "The block of candidate cells covers the shape", "statement": "The range of unit cells examined for a shape contains every unit cell whose lattice point lies in the bounding parallelepiped (in lattice coordinates) of the shape's vertices, with one cell of padding on each side, so no site of such a cell is missed.", "quantifier": "every list of vertices and every lattice point", "why_tests_cant": "A statement about all points of all shapes.", "anchors": ["cppcore/src/system/Foundation.cpp:find_bounds"]}
{"id": "C12", "title": "Sublattice run-length encoding behaves like the plain label list", "statement": "Adding sites, filtering with a keep mask, total size, per-site lookup and save/restore of the compressed sublattice table commute with the same operations on the uncompressed list of labels.", "quantifier": "every sequence of additions and every mask of matching length", "why_tests_cant": "All masks and all run structures cannot be enumerated.", "anchors": ["cppcore/src/system/CompressedSublattices.cpp", "cppcore/include/system/CompressedSublattices.hpp"]}
{"id": "C13", "title": "Removing sites keeps the remaining hoppings on the same physical sites", "statement": "When a site-state modifier removes sites, every hopping between two surviving sites still connects the same two physical sites afterwards, hoppings with a removed end disappear, and all stored indices are valid for the reduced system; this also holds for modifiers applied after a site or hopping generator.", "quantifier": "every system, every keep mask, every order of modifiers and generators", "why_tests_cant": "Needs all masks; existing tests only remove sites before any generator runs.", "anchors": ["cppcore/src/system/System.cpp:remove_invalid", "cppcore/src/system/HoppingBlocks.cpp:HoppingBlocks::filter", "cppcore/src/Model.cpp:Model::make_system"]}
{"id": "C14", "title": "Hopping generators add exactly the requested hoppings", "statement": "After a hopping generator returns index lists (from, to) of equal length, the family holds exactly its previous hoppings together with the requested ones, without duplicates, and the matrix element from i to j is the generator's energy (and from j to i its Hermitian conjugate) in the requested direction. Lists of unequal length are rejected.", "quantifier": "every pair of index lists and every energy (complex or matrix valued)", "why_tests_cant": "Direction matters only for complex or rectangular energies with from > to; tests use real energies.", "anchors": ["cppcore/src/system/HoppingBlocks.cpp:HoppingBlocks::append", "cppcore/src/Model.cpp:Model::make_system"]}
{"id": "C15", "title": "Hopping table save/restore and neighbour counts are faithful", "statement": "Serialising and restoring the hopping table is the identity; the hopping count equals the sum of family sizes; the per-site neighbour counts equal the number of incident stored hoppings and sum to twice the hopping count; conversion to sparse-matrix form keeps every (row, column, family).", "quantifier": "every hopping table with in-range indices", "why_tests_cant": "Round-trip for all tables.", "anchors": ["cppcore/src/system/HoppingBlocks.cpp:get_serialized_blocks", "cppcore/src/system/HoppingBlocks.cpp:count_neighbors", "cppcore/src/system/HoppingBlocks.cpp:nnz", "cppcore/src/system/HoppingBlocks.cpp:tocsr"]}
{"id": "C16", "title": "Site indices map to disjoint, complete Hamiltonian index ranges", "statement": "For every system the Hamiltonian indices of the sites are pairwise disjoint, cover exactly [0, matrix size), have as many entries as the site has orbitals, and agree with the expanded positions and with the indices where the Hamiltonian builder actually writes the site's matrix elements.", "quantifier": "every system, including multi-orbital ones and ones extended by site generators", "why_tests_cant": "All orbital layouts; tests use a couple of two-orbital lattices.", "anchors": ["cppcore/src/system/System.cpp:to_hamiltonian_indices", "cppcore/src/system/System.cpp:expanded_positions", "cppcore/include/hamiltonian/HamiltonianModifiers.hpp:IndexTranslator", "cppcore/src/system/CompressedSublattices.cpp:start_index"]}
{"id": "C17", "title": "The Hamiltonian is Hermitian", "statement": "For every model whose onsite energies were accepted and whose modifiers return Hermitian onsite blocks, the assembled matrix equals its conjugate transpose, for every wave vector.", "quantifier": "every system, every energy assignment, every wave vector", "why_tests_cant": "All matrices and all k points.", "anchors": ["cppcore/include/hamiltonian/Hamiltonian.hpp:build_main", "cppcore/include/hamiltonian/Hamiltonian.hpp:build_periodic", "cppcore/src/system/Registry.cpp:register_family", "cppcore/src/Lattice.cpp:Lattice::add_sublattice"]}
{"id": "C18", "title": "Every Hamiltonian entry is exactly what the tight-binding model prescribes", "statement": "Each matrix element equals the sum of the onsite energy entry (if both indices belong to the same site), the forward and conjugate contributions of every stored hopping, and the phase-weighted contributions of every boundary hopping; elements with no contribution are zero. The specialised single-orbital path and the generic path agree.", "quantifier": "every system, every modifier result, every wave vector, every index pair", "why_tests_cant": "Entry-wise equality over unbounded matrices.", "anchors": ["cppcore/include/hamiltonian/Hamiltonian.hpp", "cppcore/include/hamiltonian/HamiltonianModifiers.hpp"]}
{"id": "C19", "title": "Hopping modifiers see each hopping once, independent of internal batching", "statement": "A hopping modifier that works element by element gives the same Hamiltonian whatever internal batch size is used; each hopping is passed exactly once, in order, with its own end positions and energy matrix entry; building always terminates.", "quantifier": "every block size, every energy matrix size, every elementwise modifier", "why_tests_cant": "The batch limit is 100000 elements, so batch boundaries are essentially never exercised by tests.", "anchors": ["cppcore/include/hamiltonian/HamiltonianModifiers.hpp:apply_to_hoppings_impl", "cppcore/include/detail/algorithm.hpp:Sliced"]}
{"id": "C20", "title": "Observing a model never changes it, and results always match the current configuration", "statement": "For every sequence of configuration calls and queries on a model, the system and Hamiltonian returned by a query equal those of a fresh model given the same configuration calls without the interleaved queries.", "quantifier": "every finite interleaving of add / set_wave_vector / clear / query calls", "why_tests_cant": "Stale-cache bugs depend on the history of calls.", "anchors": ["cppcore/src/Model.cpp", "cppcore/include/Model.hpp"]}
{"id": "C21", "title": "A rejected model call leaves the model usable and unchanged", "statement": "If a model configuration call raises, later queries return what they would have returned had the call never been made.", "quantifier": "every reachable model state and every failing call", "why_tests_cant": "Tests stop at the exception.", "anchors": ["cppcore/src/Model.cpp:Model::add", "cppcore/src/Model.cpp:Model::attach_lead"]}
{"id": "C22", "title": "Parallel parameter sweeps process each job exactly once and always finish", "statement": "For every number of worker threads >= 1 and every queue size, under every thread interleaving the parallel loop produces, computes and retires each job exactly once, each only after the previous stage, and it never deadlocks. The same holds for the sequential result: the set of (job, index) pairs retired is that of the sequential loop.", "quantifier": "every job count, thread count, queue capacity and scheduler interleaving", "why_tests_cant": "Interleavings cannot be enumerated by tests.", "anchors": ["cppcore/include/detail/thread.hpp:Queue", "cppcore/include/detail/thread.hpp:parallel_for", "cppmodule/src/parallel.cpp"]}
{"id": "C23", "title": "The bounded queue never exceeds its capacity and preserves order", "statement": "Items leave the work queue in the order in which they entered, none is lost or duplicated, at most the configured number are held, and consumers are told 'finished' only when all producers are done and the queue is empty.", "quantifier": "every interleaving of any number of producers and consumers", "why_tests_cant": "Scheduling dependent.", "anchors": ["cppcore/include/detail/thread.hpp:Queue"]}
{"id": "C24", "title": "The thread pool runs every submitted task exactly once before join returns", "statement": "With at least one worker, every task added to the pool before join is executed exactly once and join returns only after all of them have finished, under every interleaving.", "quantifier": "every number of tasks and workers, every interleaving", "why_tests_cant": "Scheduling dependent.", "anchors": ["cppcore/include/detail/thread.hpp:ThreadPool"]}
{"id": "C25", "title": "KPM reordering is a faithful relabelling", "statement": "For every Hamiltonian whose bond graph is connected, the reordered and scaled matrix is the original scaled matrix under a permutation that sends the first target index to 0, its slices are breadth-first layers, and every row only couples to the previous, the same and the next layer. Building it never accesses memory out of range.", "quantifier": "every Hermitian sparsity pattern and every target index", "why_tests_cant": "All graphs; disconnected systems are never tested.", "anchors": ["cppcore/src/kpm/OptimizedHamiltonian.cpp:create_reordered", "cppcore/include/kpm/OptimizedHamiltonian.hpp:SliceMap"]}
{"id": "C26", "title": "KPM speed options do not change the moments", "statement": "For every Hamiltonian, start vector supported on the targets and moment count the code accepts, the size-optimised, interleaved and combined algorithms produce exactly the same moments (in exact arithmetic) as the plain algorithm, for diagonal and off-diagonal calculations.", "quantifier": "every matrix, start vector, number of moments, set of source/destination indices", "why_tests_cant": "The index bookkeeping depends on layer structure and moment count; tests compare a few with tolerance.", "anchors": ["cppcore/include/kpm/calc_moments.hpp", "cppcore/include/kpm/OptimizedHamiltonian.hpp:SliceMap::index", "cppcore/src/kpm/default/Compute.cpp"]}
{"id": "C27", "title": "KPM moments are Chebyshev expectation values", "statement": "The collected moments are <beta|op T_n(H~)|alpha> with T_n the Chebyshev polynomials of the scaled Hamiltonian (moment zero halved), and the doubled-rate diagonal collector equals the definition for every n when the matrix is Hermitian.", "quantifier": "every matrix, vector, operator and n", "why_tests_cant": "Polynomial identity for all n.", "anchors": ["cppcore/src/kpm/default/collectors.cpp", "cppcore/include/kpm/calc_moments.hpp", "cppcore/include/kpm/Starter.hpp:make_r1"]}
{"id": "C28", "title": "The ELLPACK and CSR code paths compute the same thing", "statement": "Conversion to ELLPACK preserves the matrix, padding entries are in range and contribute nothing, and the ELLPACK multiply (including the fused last column and any split into aligned/unaligned parts) gives the same result as the CSR multiply on every row range, leaving other rows untouched.", "quantifier": "every sparse matrix, vectors, row range and alignment", "why_tests_cant": "All shapes, row lengths and alignments.", "anchors": ["cppcore/include/numeric/ellmatrix.hpp:csr_to_ell", "cppcore/include/compute/kernel_polynomial.hpp", "cppcore/include/support/simd.hpp:split_loop"]}
{"id": "C29", "title": "DOS and LDOS results do not depend on thread scheduling", "statement": "Whatever the order in which worker threads take starter vectors and deliver moments, the averaged moments are the mean over exactly the requested number of vectors and the LDOS columns are matched to their own target index, for every batch/single split.", "quantifier": "every number of vectors, threads, batch size and completion order", "why_tests_cant": "Scheduling dependent.", "anchors": ["cppcore/src/kpm/Moments.cpp:BatchAccumulatorImpl", "cppcore/src/kpm/Moments.cpp:BatchConcatenatorImpl", "cppcore/src/kpm/default/Compute.cpp", "cppcore/include/kpm/Starter.hpp:make_r0"]}
{"id": "C30", "title": "Green's function arguments are validated and (row, col) is respected", "statement": "Every Green's function request with row or column outside the matrix is rejected and every accepted one computes the (row, col) matrix element.", "quantifier": "every matrix (real or complex), every row and column", "why_tests_cant": "Boundary values and complex-valued matrices for all indices.", "anchors": ["cppcore/src/KPM.cpp:calc_greens", "cppcore/src/KPM.cpp:calc_greens_vector", "cppcore/src/kpm/Core.cpp:greens_vector", "cppcore/src/kpm/default/collectors.cpp:MultiUnitCollector"]}
{"id": "C31", "title": "Conductivity direction strings are validated", "statement": "A conductivity request is accepted exactly when the direction is a two-letter combination of x, y and z; any other string is rejected with an error and nothing invalid is dereferenced.", "quantifier": "every string", "why_tests_cant": "Unbounded input space.", "anchors": ["cppcore/src/KPM.cpp:calc_conductivity"]}
{"id": "C32", "title": "The number of returned moments is exactly the number requested", "statement": "For every requested positive count, the internally rounded count is the smallest admissible one not below it, satisfies the preconditions of every algorithm, and exactly the requested number is returned.", "quantifier": "every positive integer", "why_tests_cant": "Modular arithmetic over all integers.", "anchors": ["cppcore/include/kpm/Kernel.hpp:round_num_moments", "cppcore/src/kpm/Core.cpp:moments", "cppcore/include/kpm/calc_moments.hpp"]}
{"id": "C33", "title": "Nearest-site lookup returns the nearest site", "statement": "The nearest-site query returns an index inside the requested sublattice's range whose distance is minimal, the smallest such index on ties; unknown sublattices are rejected.", "quantifier": "every system and target position", "why_tests_cant": "All positions.", "anchors": ["cppcore/src/system/System.cpp:find_nearest", "cppcore/src/system/System.cpp:sublattice_range"]}
{"id": "C34", "title": "Polygon membership follows the even-odd rule", "statement": "A point is reported inside a polygon exactly when the number of edges crossed by the horizontal ray from the point is odd, independent of the starting vertex and of the orientation in which vertices are listed; for axis-aligned rectangles this is the half-open rectangle.", "quantifier": "every vertex list and point (exact arithmetic)", "why_tests_cant": "All polygons and points.", "anchors": ["cppcore/src/system/Shape.cpp:WithinPolygon"]}
{"id": "C35", "title": "Lead Hamiltonians are consistent with the bulk", "statement": "The inter-cell matrix of an attached lead holds, for every bond from one lead cell to the next, the bond's energy in the direction from cell to next cell (Hermitian conjugate for reversed bonds), so that the infinite lead built from the intra- and inter-cell matrices is the bulk lattice.", "quantifier": "every lattice (real or complex hoppings) and lead direction", "why_tests_cant": "Complex hoppings and both orientations.", "anchors": ["cppcore/src/leads/Structure.cpp", "cppcore/include/leads/HamiltonianPair.hpp"]}
{"id": "C36", "title": "No site of a shape falls outside the allocated block", "statement": "Every site whose position lies in the polygon (or in the bounding box of a freeform shape) belongs to a unit cell of the block that is allocated for the shape, so no atom is silently missing.", "quantifier": "every lattice, sublattice position, lattice offset, shape and site", "why_tests_cant": "Needs a convexity argument over all polygons and lattices; tests only look at a few shapes on lattices whose sites are close to the lattice point.", "anchors": ["cppcore/src/system/Foundation.cpp:find_bounds", "cppcore/src/system/Shape.cpp:WithinPolygon", "cppcore/src/system/Shape.cpp:make_freeformshape_vertices"]}
{"id": "C37", "title": "A line shape holds exactly the sites between its end planes", "statement": "A site belongs to a line shape exactly when its projection on the line lies between the two end points, the end points included.", "quantifier": "every pair of end points and every site position", "why_tests_cant": "Degenerate positions (a site exactly at an end point) form a measure-zero set that sampling misses.", "anchors": ["cppcore/src/system/Shape.cpp:Line", "cppcore/src/system/Shape.cpp:is_acute_angle"]}
{"id": "C38", "title": "A primitive shape has exactly the requested size and is centred", "statement": "A primitive shape is rejected unless every extent is positive; otherwise its block has exactly the requested extents, contains the origin cell and is centred up to one cell.", "quantifier": "every triple of integers", "why_tests_cant": "All extents, odd and even, including non-positive ones.", "anchors": ["cppcore/src/system/Shape.cpp:Primitive", "cppcore/src/system/Foundation.cpp:Foundation"]}
{"id": "C39", "title": "A later setting replaces the earlier one", "statement": "Setting the primitive size, the shape, the symmetry or the wave vector of a model a second time gives exactly the model that would result if the first setting had never been made.", "quantifier": "every model, every pair of settings of the same kind, every later query", "why_tests_cant": "Tests build a model once; the accumulated state of repeated settings is invisible unless two models are compared.", "anchors": ["cppcore/src/Model.cpp:add", "cppcore/src/Lattice.cpp:set_offset"]}
{"id": "C40", "title": "A lead is attached exactly when it can reach the structure", "statement": "Attaching a lead succeeds exactly when the lead's cross-section is not empty and every one of its columns meets an existing site; it then adds exactly the missing sites between the start of the lead and the first existing site of each column and changes nothing else.", "quantifier": "every block, set of existing sites, lead shape, axis and sign", "why_tests_cant": "The fill loop has many interacting index computations (slices, sides, early stops); tests cover a couple of leads on one lattice.", "anchors": ["cppcore/src/leads/Spec.cpp:create_attachment_area", "cppcore/src/leads/Spec.cpp:attachment_slice", "cppcore/src/leads/Spec.cpp:Junction"]}
{"id": "C41", "title": "Attaching a lead is memory safe", "statement": "Attaching a lead never reads or writes an array element outside the allocated block, wherever the lead's shape lies.", "quantifier": "every block and lead shape", "why_tests_cant": "An out-of-range read in an Eigen array usually returns some value; tests do not notice it.", "anchors": ["cppcore/src/leads/Spec.cpp:shape_slice", "cppcore/src/leads/Spec.cpp:Junction", "cppcore/include/system/Foundation.hpp:SpatialSlice"]}
{"id": "C42", "title": "Lead contacts are distinct sites of the system", "statement": "The index list of an attached lead holds the system numbers of the lead's contact sites, each exactly once, and every contact site exists in the system.", "quantifier": "every lattice, block, set of sites and any number of leads", "why_tests_cant": "Needs interactions of several leads; tests attach leads that do not overlap.", "anchors": ["cppcore/src/leads/Structure.cpp", "cppcore/src/leads/Leads.cpp:create_attachment_area"]}
{"id": "C43", "title": "The Hamiltonian of a periodic system is the Bloch sum of the bulk lattice", "statement": "For every lattice made with the API, every set of valid sites within one period and every number type: the matrix element between orbitals of two sites is the onsite energy plus the sum, over all translations by whole periods, of the bulk hopping element between the translated first site and the second site times the phase of the translation, when bonds reach at most one cell or the period is one cell.", "quantifier": "every lattice, block, period, set of sites, phase function and pair of orbitals", "why_tests_cant": "Composes lattice, foundation, symmetry and Hamiltonian construction; tests compare a few band energies of a few lattices.", "anchors": ["cppcore/src/Model.cpp:make_system", "cppcore/src/system/System.cpp:populate_system", "cppcore/src/system/System.cpp:populate_boundaries", "cppcore/include/hamiltonian/Hamiltonian.hpp"]}
{"id": "C44", "title": "Structure modifiers act on every site by itself, under the name of its sublattice", "statement": "A state or position modifier that treats sites one by one changes each site of the foundation, or of the system once a generator has run, exactly by its rule, and is given the name of the site's own sublattice; minimum-neighbour trimming follows; modifiers before and after a generator see the same names.", "quantifier": "every lattice, block, list of modifiers and order of modifiers and generators", "why_tests_cant": "Needs sublattice segments of several sizes, aliases and modifiers on both sides of a generator; tests apply one modifier to a small shape.", "anchors": ["cppcore/src/system/StructureModifiers.cpp", "cppcore/src/Model.cpp:make_system", "cppcore/src/system/Registry.cpp"]}
{"id": "C45", "title": "A model without generators is built as its parts say", "statement": "The sites of the built system are the sites of the shape within one period, changed by the structure modifiers in order and numbered in foundation order; the build throws exactly when none is left; the Hamiltonian is the Bloch sum of the lattice on these sites.", "quantifier": "every lattice made with the API, shape, period, list of site-wise structure modifiers, wave vector", "why_tests_cant": "Composition of all construction steps; tests check examples of each step.", "anchors": ["cppcore/src/Model.cpp:make_system", "cppcore/src/system/StructureModifiers.cpp", "cppcore/include/hamiltonian/Hamiltonian.hpp"]}
{"id": "C46", "title": "Generators add exactly their sites and hoppings to the Hamiltonian", "statement": "A site generator leaves all matrix elements between existing sites unchanged and adds its sites with the onsite energy of their family; a hopping generator adds, for every pair it names that is not stored yet, its energy and the conjugate; the elements of every such model are the tight-binding elements.", "quantifier": "every system, generator callback, energy matrices of any shape that fit their sites, Hamiltonian modifiers", "why_tests_cant": "Tests generate sites with as many orbitals as the lattice has; the claim depends on the order of orbital counts.", "anchors": ["cppcore/src/system/StructureModifiers.cpp", "cppcore/src/Model.cpp:make_system", "cppcore/include/hamiltonian/Hamiltonian.hpp", "cppcore/src/system/CompressedSublattices.cpp"]}
{"id": "C47", "title": "Lead contact indices refer to the final system", "statement": "In every built model with a lead, contact j of the lead is the site of the final system that the lead's index list names, and the stored contact position is that of the site moved by one lead period.", "quantifier": "every lattice, lead, list of structure modifiers and generators in any order", "why_tests_cant": "Needs a state modifier after a generator in a model with a lead; no test combines them.", "anchors": ["cppcore/src/Model.cpp:make_system", "cppcore/src/leads/Structure.cpp", "cppcore/src/system/StructureModifiers.cpp"]}
{"id": "C48", "title": "Configuration calls are accepted exactly when they make sense, and families are found by name", "statement": "A lattice or model call throws exactly when its documented condition is violated (names blank or in use, energies that are not real-diagonal square upper-triangular or full Hermitian, hoppings between unknown sublattices, directions outside the lattice dimension); a rejected call changes no registry and an accepted generator appends one entry; names stay distinct, so name, id and energy lookups agree.", "quantifier": "every lattice, every sequence of calls, accepted or not, every lookup", "why_tests_cant": "Quantifies over all call histories; tests check a few error messages.", "anchors": ["cppcore/src/Lattice.cpp", "cppcore/src/Model.cpp", "cppcore/src/system/Registry.cpp"]}
{"id": "C49", "title": "The FEAST strategy keeps MKL inside its buffers and always comes back", "statement": "For every sequence of Hamiltonians, every configuration and every behaviour of MKL within its documented contract, solve() ends, with an exception or with eigenvalue and eigenvector arrays that have the size of the last Hamiltonian and hold all eigenvalues found; MKL never gets an array that is too small.", "quantifier": "every sequence of matrix sizes, initial guess, refinement limit, recycling on or off, every MKL return code sequence within the contract", "why_tests_cant": "Depends on return codes of a closed library that is not even compiled in for the tests.", "anchors": ["cppcore/src/solver/FEAST.cpp", "cppcore/include/solver/FEAST.hpp"]}
{"id": "C50", "title": "The answers of a solver belong to the model it shows", "statement": "Whatever was done with a solver or KPM object (models exchanged, wave vectors set, results cleared, queries made), the result it returns is the result of the current Hamiltonian of the model that the object shows.", "quantifier": "every sequence of operations on FEAST, LAPACK/ARPACK and KPM objects, every model state, every solver function", "why_tests_cant": "Quantifies over operation histories; tests build a new solver for each check and FEAST is not compiled in for the tests.", "anchors": ["cppcore/src/solver/Solver.cpp", "pybinding/solver.py", "cppcore/src/KPM.cpp", "cppmodule/src/solver.cpp"]}
{"id": "C51", "title": "Kernel polynomial results do not depend on earlier queries", "statement": "After any sequence of calculations and changes of the Hamiltonian, a calculation returns what it would return on a new object with the current Hamiltonian, with the energy bounds and the optimised matrix computed from scratch.", "quantifier": "every matrix, history, index list, energy range or estimate, and calculation", "why_tests_cant": "Cached bounds and matrices are only reused in particular orders of queries.", "anchors": ["cppcore/src/kpm/Core.cpp", "cppcore/src/kpm/Bounds.cpp", "cppcore/src/kpm/OptimizedHamiltonian.cpp"]}
{"id": "C52", "title": "Densities of states are never negative with a smoothing kernel", "statement": "With the Jackson or the Lorentz kernel, every value of the local density of states and of the density of states that the kernel polynomial method returns for energies inside the spectrum bounds is a finite number and not negative, for every Hermitian Hamiltonian, site, start vector, broadening, matrix format and algorithm choice. The Dirichlet kernel gives no such guarantee (witness).", "quantifier": "all Hermitian matrices with energies in [lo, hi], lo < hi, all sites, start vectors, broadenings > 0, energies in [lo, hi]; real arithmetic", "why_tests_cant": "positivity holds for every matrix and every number of moments because of an algebraic identity; tests sample a few spectra", "anchors": ["cppcore/src/kpm/Kernel.cpp", "cppcore/include/kpm/reconstruct.hpp", "cppcore/include/kpm/Bounds.hpp", "cppcore/src/kpm/Core.cpp"]}
{"id": "C53", "title": "The broadening is the width of the peaks in a density of states", "statement": "With the Jackson kernel the local density of states at a site is the sum over all states of |psi(site)|^2 times a peak at the energy of the state. Every peak is nowhere negative, has area one, and its mean squared distance from the energy of the state is below the square of the requested broadening. For the density of states the weights are the squared overlaps with the start vector.", "quantifier": "all Hermitian matrices, energies in [lo, hi], all sites, start vectors and broadenings > 0; real arithmetic", "why_tests_cant": "area and width are integrals over energy and must hold for every position of the peak and every number of moments", "anchors": ["cppcore/src/kpm/Kernel.cpp", "cppcore/include/kpm/reconstruct.hpp", "cppcore/include/kpm/Bounds.hpp", "cppcore/src/kpm/Core.cpp"]}
{"id": "C54", "title": "Green's function and local density of states agree", "statement": "For every kernel, the diagonal element of the Green's function and the local density of states computed for the same site, broadening and energies satisfy ldos = -Im G / pi. The Lorentz kernel is refused exactly when its parameter is not positive.", "quantifier": "all Hermitian matrices, sites, kernels, broadenings > 0 and energies; real arithmetic", "why_tests_cant": "two separate code paths (batched diagonal moments and Green's function moments) must agree for all inputs", "anchors": ["cppcore/src/kpm/Core.cpp", "cppcore/include/kpm/reconstruct.hpp", "cppcore/src/kpm/Kernel.cpp"]}
{"id": "C55", "title": "The conductivity is the energy integral of the Kubo-Bastin formula", "statement": "The conductivity equals 4/a^2 times the trapezoid sum, over the equally spaced energy samples, of the documented integrand. (False: the result is smaller by the factor (n-1)/n for n samples, because the step is computed as the energy range divided by n.)", "quantifier": "all bounds lo < hi, sample counts >= 2, moments, temperatures > 0 and chemical potentials; real arithmetic", "why_tests_cant": "the error is proportional to 1/n and disappears in test tolerances for large n", "anchors": ["cppcore/include/kpm/reconstruct.hpp", "cppcore/include/kpm/Bounds.hpp", "cppcore/src/kpm/Core.cpp"]}
{"id": "C56", "title": "The space reserved for the matrix elements is always enough", "statement": "The number of non-zero elements that the Hamiltonian builder reserves (hamiltonian_nnz) is never smaller than the number of elements it then stores, so that no reallocation happens and, with setFromTriplets, no element is lost.", "quantifier": "every finished system without boundaries, every modifier list, every scalar type; all builds that succeed", "why_tests_cant": "Tests never look at the reserved size; a wrong count only shows as slow builds.", "anchors": ["cppcore/src/system/System.cpp", "cppcore/include/hamiltonian/Hamiltonian.hpp"]}
{"id": "C57", "title": "Spatial LDOS, LDOS, DOS and probability agree with each other", "statement": "The spatial density map has one non-negative value per site, the value calc_ldos gives at that site summed over its orbitals; with normalised wave functions its sum over all sites is the density of states; the C++ and the Python formulas are the same; calc_probability sums the states within the tolerance over the orbitals of each site, and its values add up to the number of those states.", "quantifier": "all eigenvalues, eigenvectors, orbital layouts, energies and positive broadenings; real arithmetic", "why_tests_cant": "Relates four methods over all orbital layouts; tests compare single numbers for one graphene model.", "anchors": ["pybinding/solver.py", "pybinding/system.py", "cppcore/src/solver/Solver.cpp"]}
{"id": "C58", "title": "Degenerate states are grouped by maximal runs of close levels", "statement": "find_degenerate_states returns exactly the maximal runs (of two or more) of levels whose neighbouring gaps are below the tolerance, in ascending order, each level at most once. For sorted energies in which different levels are at least the tolerance apart, two levels share a group exactly if they are equal.", "quantifier": "all energy lists and tolerances", "why_tests_cant": "The two doctest lists are fixed; the statement is about every list.", "anchors": ["pybinding/solver.py"]}
{"id": "C59", "title": "The probability map of eigenvalues shows the density at the chosen site", "statement": "calc_eigenvalues(map_probability_at=r) shows for each state the probability density at the site nearest to r (all its orbitals), averaged over degenerate states; the total is preserved and the result does not depend on the basis chosen inside a degenerate group. (False for multi-orbital models: the site index is used as the eigenvector row.)", "quantifier": "all eigenvalues, eigenvectors, orbital layouts, sites and tolerances; all unitary mixings inside groups", "why_tests_cant": "The tests use single-orbital models, where site index and row agree; basis independence quantifies over all unitary matrices.", "anchors": ["pybinding/solver.py"]}
{"id": "C61", "title": "Energy bounds found by the Lanczos procedure", "statement": "The energy bounds the KPM finds by itself enclose the spectrum of the Hamiltonian well enough that the scaled Hamiltonian lies within [-1, 1]. (False as stated: for every real start vector of three numbers there is a Hermitian matrix for which the procedure stops after two steps with bounds near 1 though the spectrum reaches 100. Proved: for every Hermitian matrix and nonzero start vector the procedure never reads outside its arrays, the bounds are energies of actual normalised states up to the size of the subdiagonal elements dropped as negligible, hence never outside the spectrum by more than that, the mean energy of the start vector lies between them, and a division by zero can only happen if the powers of the Hamiltonian on the start vector are linearly dependent.)", "quantifier": "All sparse Hermitian matrices of any size, all nonzero start vectors, all precisions and all machine epsilons.", "why_tests_cant": "Tests compare the bounds with known values for a few graphene systems; the convergence test looks at two successive estimates only, and no test can show that it never stops too early. The start vector is always the same, so a matrix on which it fails fails always.", "anchors": ["cppcore/include/compute/lanczos.hpp", "cppcore/src/kpm/Bounds.cpp", "cppcore/include/kpm/Bounds.hpp"]}
{"id": "C62", "title": "Eigenvalues of a tridiagonal matrix", "statement": "The QR iteration for symmetric tridiagonal matrices ends for every matrix, never reads or writes outside its arrays, and either reports that it did not converge or returns as many values as the matrix has rows, such that some orthogonal change of coordinates turns the matrix into the diagonal of these values, up to M((1+2eps)^(n-1) - 1) where M bounds the matrix; the least and the greatest value enclose the matrix within the same error.", "quantifier": "All sizes, all real diagonals and subdiagonals, all machine epsilons; exact arithmetic otherwise.", "why_tests_cant": "Each rotation is chosen from the data and the loop deflates blocks in an order that depends on it; a wrong sign or index in one rotation changes eigenvalues only for some matrices.", "anchors": ["cppcore/include/compute/eigen3/lanczos.hpp"]}
{"id": "C60", "title": "Paths through k-space visit the given points", "statement": "A path made from two or more points passes through all of them, at the recorded point indices, in straight lines with even steps; points of different shapes are refused. (False as stated: when two neighbouring points are closer together than the step, the first of the two is left out and its index refers to another point; and the shape check compares with the first two points only, so two points of different shapes are broadcast against each other. Proved for points of the same size: the last point is there, every segment of at least one step starts at its point, the points of the segment lie evenly on the straight line, the number of steps is the length divided by the step rounded down, so their distance is at least the step and less than twice the step.)", "quantifier": "All lists of points of any dimension, all positive steps.", "why_tests_cant": "The number of points depends on the rounded length of each segment; tests use a few paths whose segments are longer than the step.", "anchors": ["pybinding/results.py"]}
{"id": "C63", "title": "Neighbour shells of the graphene lattice", "statement": "For one, two or three shells of neighbours the monolayer graphene lattice of the repository is accepted by the lattice object, and between any two atoms of the infinite sheet the hopping energy is t, t_nn or t_nnn exactly if they are first, second or third neighbours by distance (and that shell is included), otherwise zero; all other atoms are more than 0.37 nm away. More shells are refused.", "quantifier": "All pairs of atoms of the infinite sheet, all energies, all numbers of shells.", "why_tests_cant": "A test checks a few rows of the matrix of a finite flake; a term with a wrong cell index, or given together with its conjugate, shows only in the distance of particular pairs of atoms.", "anchors": ["pybinding/repository/graphene/lattice.py", "pybinding/repository/graphene/constants.py", "pybinding/lattice.py"]}
{"id": "C64", "title": "Dirac points of graphene", "statement": "At the corners K and K' of the Brillouin zone the Hamiltonian of the periodic graphene sheet is diagonal and holds the two onsite energies as given, whatever the hopping energies and the number of neighbour shells; with equal onsite energies the bands touch there and the offset 3 t_nn puts the touching point exactly at the onsite energy.", "quantifier": "All onsite and hopping energies, one to three shells, both corners, every periodic one-cell system built from the lattice.", "why_tests_cant": "Band structure tests sample a few wave vectors and compare with stored floating-point values; exact cancellation for all energies is an algebraic identity.", "anchors": ["pybinding/repository/graphene/lattice.py", "pybinding/repository/graphene/constants.py", "cppcore/src/hamiltonian/Hamiltonian.cpp", "cppcore/src/Model.cpp"]}
{"id": "C65", "title": "The alternative graphene lattices are the same crystal", "statement": "monolayer_alt (other primitive vectors) and monolayer_4atom (rectangular cell with two aliased sublattices) describe the same crystal as monolayer with nearest neighbours: there is a bijection of the sites of the infinite sheets that keeps onsite energies and every matrix element; it moves all atoms by half a bond for monolayer_alt, and for monolayer_4atom keeps the positions up to the mismatch of the two length constants, 2e-6 nm per row of cells.", "quantifier": "All pairs of sites of the infinite sheets, all energies, any order in which the hash map lists the hopping families.", "why_tests_cant": "Tests look at the two lattices separately; a wrong cell index in one of the six terms of the rectangular cell leaves the number of neighbours right and joins the wrong atoms.", "anchors": ["pybinding/repository/graphene/lattice.py", "pybinding/repository/graphene/constants.py", "cppcore/src/Lattice.cpp"]}
{"id": "C66", "title": "Bonds of Bernal-stacked bilayer graphene", "statement": "The bilayer lattice of the repository holds the Slonczewski-Weiss-McClure hoppings: between two atoms the energy is gamma0 for neighbours in a layer, gamma1 for atoms on top of each other, gamma3 (if asked for) between the two other sublattices, gamma4 (if asked for) for both pairs A1-A2 and B1-B2 over one bond length in the plane; so turning the crystal upside down leaves it as it is.", "quantifier": "All pairs of sites of the infinite bilayer, all energies, all four choices of gamma3 and gamma4.", "why_tests_cant": "Tests compare a few matrices with stored ones; a missing term is in the stored ones as well.", "anchors": ["pybinding/repository/graphene/lattice.py", "pybinding/repository/graphene/constants.py"]}
{"id": "C67", "title": "A lattice holds exactly what was declared", "statement": "After any sequence of calls on a lattice object, some of which may have been refused, the sublattices are those of the accepted calls, numbered in order, and the matrix element of the infinite lattice between two orbitals is the sum of the energies of all accepted hopping calls leading from the first to the second, plus the conjugated sum of those leading back; energies are looked up by name, or shared between calls if they are equal and without name.", "quantifier": "All sequences of calls with arbitrary arguments, all sites and orbitals, any scalar type, any iteration order of the hash map of families.", "why_tests_cant": "Unnamed energies are merged into families by comparing matrices and numbered by the size of the map; only a statement over all sequences of calls shows that none is mixed up.", "anchors": ["cppcore/src/Lattice.cpp", "cppcore/include/Lattice.hpp"]}
{"id": "C68", "title": "Symmetry of the three-band model of group 6 dichalcogenides", "statement": "The lattice made by group6_tmd.monolayer_3band is accepted for all parameters, and it is unchanged if the crystal and the orbitals d_z2, d_xy, d_x2-y2 are turned together by 120 degrees about a metal atom, or mirrored at x = 0: positions, onsite energies and all hopping elements of turned sites are the turned ones.", "quantifier": "All nine parameters, all pairs of sites, all pairs of orbitals.", "why_tests_cant": "The three matrices are typed in by hand from a paper; a wrong sign or a wrong transposition gives a plausible band structure and is not seen at the few points a test looks at.", "anchors": ["pybinding/repository/group6_tmd.py", "cppcore/src/Lattice.cpp"]}
{"id": "C69", "title": "Symmetries and bond lengths of phosphorene", "statement": "For two to five hopping energies the phosphorene lattice is accepted, and the mirror y -> -y, the half turn about the vertical axis and the half turn about the y axis between the two half layers map atoms onto atoms and keep all onsite and hopping energies; other numbers are refused. The bonds of t1 and t2 are nearest neighbours: their lengths differ from a = 0.222 nm by no more than 0.03 nm.", "quantifier": "All energies, all pairs of sites of the infinite layer, all numbers of hoppings.", "why_tests_cant": "22 terms are typed in by hand; a wrong cell index breaks a symmetry but hardly shows in a test on one flake. The height of the atoms never enters the matrix, so no test of energies sees it.", "anchors": ["pybinding/repository/phosphorene.py", "cppcore/src/Lattice.cpp"]}
{"id": "C70", "title": "The magnetic field modifier gives the flux through every loop", "statement": "In every finite system constant_magnetic_field(B) multiplies the matrix element between two orbitals by a phase that depends on the two sites only, has modulus one and is conjugate for the opposite direction and the opposite field. Round any closed loop of sites the product of the elements gains exp(2 pi i flux / phi0), where flux is B times the area enclosed, so that whole flux quanta change nothing. Fields add up, and moving the whole system is a gauge transformation.", "quantifier": "All finite systems, numbers of orbitals, other modifiers, field strengths, closed loops of any length; real arithmetic.", "why_tests_cant": "Tests check one value for one flake. A wrong factor in the units, a mixed-up coordinate or positions paired with the wrong orbital give other complex numbers of modulus one, which look just as plausible.", "anchors": ["pybinding/repository/graphene/modifiers.py", "pybinding/constants.py", "pybinding/modifier.py", "cppcore/include/hamiltonian/HamiltonianModifiers.hpp"]}
{"id": "C71", "title": "The mass term opens a gap in every bipartite system", "statement": "mass_term(delta) adds +delta to the diagonal elements of sublattice A, -delta to those of B and changes nothing else. In every system whose bonds join A to B and whose onsite energies vanish, the spectrum is symmetric without the mass term; with it every eigenstate satisfies E (wA - wB) = delta (wA + wB) for its weights on the two sublattices, no energy lies strictly between -|delta| and |delta|, and the states at the edges of the gap are on one sublattice only.", "quantifier": "All single-orbital systems of any size, finite or periodic with any phases, any hopping modifiers, any delta, all eigenpairs.", "why_tests_cant": "A statement about all eigenvectors of all matrices the builder can make; tests look at a single ribbon or flake.", "anchors": ["pybinding/repository/graphene/modifiers.py", "pybinding/modifier.py", "cppcore/include/hamiltonian/HamiltonianModifiers.hpp", "cppcore/include/hamiltonian/Hamiltonian.hpp"]}
{"id": "C72", "title": "The density of states integrates to the number of states", "statement": "The integral over all energies of calc_dos is the number of eigenvalues, for the Python and for the C++ formula, and the integral of the local density at an orbital is the sum of the squared amplitudes of the states there.", "quantifier": "All lists of eigenvalues, all wave functions, all positive broadenings, all orbitals; improper Riemann integral over the real numbers.", "why_tests_cant": "No finite set of sample energies shows that the prefactor 1 / (c sqrt(2 pi)) is the right one; existing tests compare with stored numbers that the same formula made.", "anchors": ["pybinding/solver.py", "cppcore/src/solver/Solver.cpp"]}
{"id": "C73", "title": "Reciprocal vectors and the periodicity of the Bloch Hamiltonian", "statement": "Every lattice has reciprocal vectors b_i with b_i . a_j = 2 pi for i = j and 0 otherwise; the Hamiltonian at k plus any integer combination of them is the Hamiltonian at k, element by element and with any modifiers; with real energies the Hamiltonian at -k is the complex conjugate of that at k.", "quantifier": "All lists of one to three lattice vectors, all systems whose boundaries are lattice translations, all modifiers, all wave vectors and all reciprocal lattice vectors.", "why_tests_cant": "A test sees a few lattices and a few k-points; the lattices in the test suite all start along x or lie in the xy-plane.", "anchors": ["pybinding/lattice.py", "cppcore/include/hamiltonian/Hamiltonian.hpp", "cppcore/src/system/Symmetry.cpp"]}
{"id": "C74", "title": "The Brillouin zone", "statement": "brillouin_zone describes the set of points of reciprocal space that are not closer to any reciprocal lattice point than to the origin.", "quantifier": "All lattices of one or two dimensions with reciprocal vectors, all points of reciprocal space, all reciprocal lattice points.", "why_tests_cant": "Tests use nearly orthogonal or hexagonal vectors, where the eight combinations with coefficients -1, 0 and 1 happen to suffice.", "anchors": ["pybinding/lattice.py"]}
{"id": "C75", "title": "The band structure of a lead", "statement": "The matrix that Lead.calc_bands diagonalises at k is the Bloch Hamiltonian of the infinite lead that repeats the contact sites of the bulk lattice; it is Hermitian, has period 2 pi, is conjugated when k changes sign if the energies are real, and its eigenvectors are exactly the plane waves that solve the Schroedinger equation of the infinite lead.", "quantifier": "All lattices, shapes and leads, all pairs of contact orbitals, all wave numbers.", "why_tests_cant": "Tests compare the bands of a few leads with stored results; they use hoppings to nearest cells only.", "anchors": ["pybinding/leads.py", "cppcore/src/leads/Structure.cpp", "cppcore/include/leads/HamiltonianPair.hpp"]}
{"id": "C76", "title": "with_offset returns a moved copy of the shape", "statement": "The copy contains p + v exactly when the original contains p, its bounding vertices are those of the original plus v, and it keeps the lattice offset. False of lines (x of the vector goes to both coordinates of one end, y to both of the other), of freeform shapes whose centre has more coordinates than the vector, of polygons moved so far that a side becomes level within tolerance, and of every lattice offset; proved otherwise, with the exact condition for lines.", "quantifier": "All shapes a program can make (lines, polygons, freeform shapes with any function, nested compositions, copies of copies), all vectors of 1 to 3 components, all points.", "why_tests_cant": "The existing test moves a few shapes and compares site positions; the failures need a line with x != y, a centre with a nonzero z, or a lattice offset.", "anchors": ["pybinding/shape.py", "cppcore/src/system/Shape.cpp"]}
{"id": "C77", "title": "Composition of shapes is composition of point sets, and its bounding vertices cover it", "statement": "and, or, xor, +, - give the intersection, union, symmetric difference, union and difference of the contained points; if every point of both shapes lies between the extreme vertices in a direction, so does every point of the composition. False out of the xy plane: the vertices of every composition have z = 0, so three-dimensional compositions lose sites; proved for all directions in the plane. Moving a composition is composing the moved shapes.", "quantifier": "All shapes, all operations that give false for two falses, all convex hull routines that meet the stated contract, all points and directions.", "why_tests_cant": "Tests compose a few planar shapes; the loss in depth needs a three-dimensional lattice.", "anchors": ["pybinding/shape.py"]}
{"id": "C78", "title": "The named shapes have the geometry their names promise", "statement": "rectangle(x, y) is the half-open box of these widths, circle the open disc whose box covers it, regular_polygon(n, r) has n different vertices at distance r and n equal sides of length 2 r sin(pi/n), hexagon_ac is the regular hexagon with the smallest even number of atoms per side and a width within 2.5 bond lengths of the one asked for. rectangle(x, 0) is refuted: it is a square.", "quantifier": "All widths, radii, angles, numbers of sides and points.", "why_tests_cant": "Equal side lengths for every n, including the closing side, and the rounding bound for every width need a proof.", "anchors": ["pybinding/shape.py", "pybinding/repository/graphene/shape.py"]}
{"id": "C79", "title": "The numbers that an energy modifier returns are the ones that are stored", "statement": "For every array that a Python energy modifier returns with the shape of its argument, the memory of C++ afterwards holds, at the place of orbitals i and j of site s, the element r[s, i, j] that Python sees.", "quantifier": "All values, all numbers of sites and orbitals, all strided views of any buffer (offset, strides, ownership, same or other precision).", "why_tests_cant": "The copy ignores strides and relies on ownership and contiguity flags. Whether a result is stored rightly depends on how numpy laid it out, not on its values, and tests use the few expressions that happen to have a good layout.", "anchors": ["pybinding/modifier.py", "cppmodule/src/modifiers.cpp", "cppmodule/include/cast.hpp"]}
{"id": "C80", "title": "A position modifier moves the sites to the positions that its function returned", "statement": "After a site position modifier the coordinates x, y and z are the three arrays that the function returned, as they were when it returned.", "quantifier": "All coordinate arrays, all combinations of new arrays and of views of the three coordinates.", "why_tests_cant": "The function gets views of the live coordinates and the results are stored one after the other, so a result that is a view of an earlier coordinate has changed when its turn comes. Tests return new arrays.", "anchors": ["cppmodule/src/modifiers.cpp", "pybinding/modifier.py"]}
{"id": "C81", "title": "A name selects the same sites in a modifier and in a finished system", "statement": "Comparing the sublattice (or hopping) ids of a system with a string gives at every site what a modifier gets for the family of that site: true exactly if the name is equal, or equal up to the first bar.", "quantifier": "All one to one maps of names to ids, all arrays of ids, all strings.", "why_tests_cant": "Two different implementations of == must agree for every set of names; tests use lattices whose names have no common first part.", "anchors": ["pybinding/support/alias.py", "pybinding/modifier.py", "pybinding/system.py"]}
{"id": "C82", "title": "A parameter sweep puts every result at the place of its parameters", "statement": "For every n dimensional sweep, whatever the order in which the worker threads finish, element (i1, ..., in, e) of the array is number e of the job for the i1-th value of the first variable, ..., the in-th value of the last. Jobs get these values exactly if the swept parameters come first in the signature; otherwise every job raises.", "quantifier": "All numbers and lengths of variables, all jobs, all schedules of producer, workers and reporter, all save intervals, all signatures.", "why_tests_cant": "The order of completion depends on timing; results are written by index, saved at certain counts and reshaped. A test sees a few schedules of one small sweep.", "anchors": ["pybinding/parallel.py", "pybinding/results.py", "cppcore/include/detail/thread.hpp"]}
{"id": "C83", "title": "kwant gets the orbitals and the Hamiltonian of every site", "statement": "The list of orbital counts that hamiltonian_submatrix returns to kwant has, for every site, the number of orbitals of its sublattice (refuted; exact condition proved). hamiltonian(i, j) is the block of the orbitals of sites i and j: holds for one orbital per site, refuted for more, because the indices are used as those of the matrix.", "quantifier": "All tables of sublattices that pass the checks of C++, all matrices, all pairs of sites.", "why_tests_cant": "The counts are stored per entry of the compressed table but indexed by sublattice id; both agree for the simple lattices of tests.", "anchors": ["pybinding/support/kwant.py", "pybinding/system.py", "cppcore/src/system/CompressedSublattices.cpp"]}
{"id": "C84", "title": "Nested lists of parameters are expanded", "statement": "Model.add with tuples and lists nested to any depth does what it does with the flat list of parameters: the same C++ calls in the same order, the same shape attribute, and on failure the same error with the same parameters added. None is never accepted.", "quantifier": "All argument trees, all states, all C++ behaviours.", "why_tests_cant": "The expansion works by catching TypeError from a recursive call; errors of inner calls pass through several handlers. Tests use one level.", "anchors": ["pybinding/model.py", "cppmodule/src/model.cpp"]}
{"id": "C85", "title": "Triaxial strain acts as the homogeneous magnetic field that was asked for", "statement": "Strained hoppings multiply every matrix element by the exponential of the relative change of distance. In first order the triaxial strain for a field B changes the coupling of the sublattices at K as a position dependent shift of the momentum whose curl is B/hbar everywhere: the same as for constant_magnetic_field(B); at K' it is the opposite.", "quantifier": "All systems, lattices, orbitals and other modifiers (elements); all fields and all positions (pseudo-magnetic field), honeycomb of bond length a_cc.", "why_tests_cant": "It relates two modifiers by a limit and a curl, with unit conversions; tests compare stored numbers of one system.", "anchors": ["pybinding/repository/graphene/modifiers.py", "pybinding/repository/graphene/constants.py", "pybinding/constants.py"]}
{"id": "C86", "title": "The Coulomb potential shifts the energies of the orbitals, the bump raises the sites", "statement": "coulomb_potential adds -beta hbar vF / max(r, cutoff) to the energy of every orbital and nothing else; gaussian_bump adds a radial Gaussian profile to the height of every site.", "quantifier": "All systems, charges, cutoffs, positions and other modifiers.", "why_tests_cant": "The modifiers rely on broadcasting and on which coordinates are arguments, so they are right for one layer of single orbitals, which is what tests use.", "anchors": ["pybinding/repository/graphene/modifiers.py", "pybinding/modifier.py"]}
{"id": "C87", "title": "Indexing a structure keeps sites, bonds and data together", "statement": "Indexing a Structure or StructureMap with a mask, integers, a slice or a shape, and cropping it, keep exactly the selected sites with their positions and names and data, and exactly the bonds between selected sites, renumbered, each as often and with the same hopping id as before; the same for every periodic boundary. An index is accepted exactly when numpy accepts it.", "quantifier": "All structures, boundaries, data and indices; with or without scipy dropping stored zeros.", "why_tests_cant": "The ids are shifted by one so that scipy does not drop hoppings with the id 0; tests compare a few small slices.", "anchors": ["pybinding/support/structure.py", "pybinding/results.py", "pybinding/system.py", "cppmodule/src/system.cpp"]}
{"id": "C88", "title": "The nearest site of a structure is of the sublattice that was asked for", "statement": "Structure.find_nearest returns the first of the sites nearest to the target among those of the given sublattice.", "quantifier": "All structures, targets of one to three coordinates and sublattices.", "why_tests_cant": "A masked array without unmasked elements still has an argmin; tests ask for sublattices that exist.", "anchors": ["pybinding/support/structure.py", "pybinding/results.py", "pybinding/support/alias.py"]}
{"id": "C89", "title": "Operations on a sweep keep every value at its coordinates", "statement": "Indexing, cropping, mirroring, slicing and saving of a Sweep keep data in the shape (x.size, y.size) and every value at the x and y that it was computed for.", "quantifier": "All sweeps and all index expressions.", "why_tests_cant": "numpy drops axes and pairs index arrays in ways that depend on the kind of both indices; tests use slices.", "anchors": ["pybinding/results.py"]}
{"id": "C90", "title": "A broadened peak stays where it was", "statement": "Sweep._convolved broadens a peak away from the ends of the axis without moving it.", "quantifier": "All axes with different values, all widths.", "why_tests_cant": "The continued data has 11 elements on one side and 9 on the other; there are no tests and a shift by one sample is invisible in a plot.", "anchors": ["pybinding/results.py"]}
{"id": "C91", "title": "Every column of a spatial LDOS belongs to its site", "statement": "KPM.calc_spatial_ldos calculates the local density of states of exactly the sites that lie in the shape and are of the sublattice, and column k of the data is that of site k of the structure that is returned with it; structure_map and ldos read the nearest energy and the nearest site from it. Unknown sublattices and multi-orbital models are refused.", "quantifier": "All systems made by the builder, shapes, sublattices and earlier calculations with the same object.", "why_tests_cant": "C++ selects the sites by index range and Python selects the structure again by name; nothing compares the two selections. Tests look at the number of columns of one shape.", "anchors": ["cppcore/src/KPM.cpp", "cppcore/src/system/System.cpp", "cppcore/src/kpm/Core.cpp", "cppcore/src/kpm/OptimizedHamiltonian.cpp", "pybinding/chebyshev.py"]}
{"id": "C92", "title": "The KPM in Python and the KPM in C++ compute the same", "statement": "The LDOS of the Python implementation of the kernel polynomial method equals that of the C++ implementation, orbital by orbital and summed, for every kernel, energy range, broadening, energy, matrix format and optimisation.", "quantifier": "All Hermitian matrices, orbitals, energy ranges, broadenings, energies, kernels, algorithms and storage formats.", "why_tests_cant": "No test runs the Python implementation; the C++ code is compared with stored numbers of a few models at a tolerance of 0.1%.", "anchors": ["pybinding/chebyshev.py", "cppcore/src/kpm/Core.cpp", "cppcore/include/kpm/Bounds.hpp", "cppcore/src/KPM.cpp"]}
{"id": "C93", "title": "An object that was saved is loaded again as it was", "statement": "The pickled state of a lattice, a system or a result restores the same object, also from the older system state and whatever the order of the maps; save writes one file, the given name or the name with .pbz, and load reads that file back under the name that was given to save.", "quantifier": "All systems, all lattices built by any sequence of calls, all orders of the hash maps, all attribute dictionaries, versions, file systems and file names.", "why_tests_cant": "The tests save one list under six names into an empty directory and one system from stored data; they never have both x and x.pbz, an older version, or a reordered map.", "anchors": ["cppmodule/src/lattice.cpp", "cppmodule/src/system.cpp", "pybinding/support/pickle.py"]}
{"id": "C94", "title": "Densities do not depend on the eigenvectors a solver happens to return", "statement": "Two correct answers of an eigensolver for the same Hamiltonian (energies and orthonormal states) give the same density of states, the same local density at every site and the same spatial density, in Python and in C++; all answers with all states, in ascending order, have the same list of energies.", "quantifier": "All Hermitian matrices of every size, all sets of states that contain whole levels, all broadenings, energies, sites and orbital layouts; real arithmetic.", "why_tests_cant": "A test sees the states of one LAPACK on one machine; that any rotation inside a degenerate level leaves every density unchanged is a statement about all of them.", "anchors": ["cppcore/src/solver/Solver.cpp", "pybinding/solver.py"]}
{"id": "C95", "title": "Stochastic densities of states and conductivity moments are right on average", "statement": "The density of states from random vectors is, averaged over the random numbers, exactly the sum of one broadened peak per state, for any number of vectors, threads and batches, for real (random signs) and complex (random phases) matrices; its mean square deviation is at most 2/v times the sum of the squared peaks for v vectors. Both starters of the conductivity calculation make the same vectors, so that the averaged moment (n, m) is tr((right T_m)^+ T_n left), with left and right the Hamiltonian times coordinate differences.", "quantifier": "All Hermitian matrices within the bounds, all sizes, formats, algorithms, broadenings, energies, schedules and numbers of random vectors; real arithmetic and ideal independent uniform random numbers k/M (M even for signs, M >= 2 for phases).", "why_tests_cant": "A test compares one pseudo-random run with a loose tolerance; a bias of the estimate, a wrong normalisation per vector or different vectors left and right are below the noise.", "anchors": ["cppcore/src/kpm/Starter.cpp", "cppcore/include/numeric/random.hpp", "cppcore/src/kpm/Core.cpp", "cppcore/src/kpm/Moments.cpp"]}
{"id": "C96", "title": "The picture of a periodic structure shows every repeated cell and every bond between the cells", "statement": "plot(num_periods=n) draws every copy of the unit cell that is at most n translations away exactly once, and every bond between two drawn cells exactly once, and each line across a boundary joins the two sites of a bond of the crystal.", "quantifier": "All sets of boundary shifts, all numbers of periods, all sites and hoppings; coordinates are integer multiples of any unit.", "why_tests_cant": "Pictures are not compared in tests beyond one or two lattices with num_periods 1; whether a faint line is missing or drawn twice is not visible.", "anchors": ["pybinding/system.py", "pybinding/support/fuzzy_set.py", "pybinding/leads.py", "cppcore/src/system/System.cpp"]}
{"id": "C97", "title": "The conductivity is real and right on average and obeys Onsager reciprocity", "statement": "For a Hermitian matrix the average of the complex conductivity over the random vectors has no imaginary part, so returning the real part loses nothing. It equals the trapezoid sum of the Kubo-Bastin formula with exact traces (with the factor of C55). It is the same for every format, algorithm, scalar type and number of vectors, and exchanging the two directions is the same as conjugating the matrix; for a real matrix the tensor is symmetric.", "quantifier": "All Hermitian matrices of any size, bounds, offered kernels, coordinates, chemical potentials, temperatures, numbers of vectors and of energy points.", "why_tests_cant": "One run is random; reality and reciprocity hold only for the average over all random vectors, which no test can take.", "anchors": ["cppcore/src/KPM.cpp", "cppcore/src/kpm/Core.cpp", "cppcore/include/kpm/Kernel.hpp", "cppcore/include/kpm/reconstruct.hpp"]}
{"id": "C98", "title": "The local density of states of a model is that of the tight-binding matrix its description means", "statement": "For a model given by a lattice, a block of cells with a shape, periodic directions, site modifiers and energy modifiers, the matrix handed to the solvers has one element per position, equals its conjugate transpose and is the tight-binding matrix of the described sites with the modified energies, every modifier seeing the names and the final positions, across a period that of the image; and the local density of states computed by the kernel polynomial method at an orbital of a site is, in exact arithmetic, a sum of peaks at the energies of that matrix, narrower than the requested broadening, weighted with the states at that orbital. Site and hopping generators applied after the site modifiers add their sites and bonds to the system, and the same holds for its matrix.", "quantifier": "All lattices made with the API, all shapes and modifiers that move or remove sites, all periodic directions with bonds that reach one period, all wave vectors, all matrix formats and algorithms, all energy ranges that contain the spectrum, all broadenings, all onsite modifiers that keep Hermitian matrices Hermitian and all hopping modifiers that treat sites and hoppings one by one; all sequences of generators whose energies fit the sites they meet.", "why_tests_cant": "A test compares one small model with numbers computed by the same program; it cannot check that numbering of orbitals, assembly, compression, reordering, scaling and reconstruction fit together for every model.", "anchors": ["cppcore/src/Model.cpp", "cppcore/src/KPM.cpp", "cppcore/include/hamiltonian/Hamiltonian.hpp", "cppcore/src/kpm/Core.cpp", "cppcore/src/system/System.cpp"]}
{"id": "C99", "title": "A modifier function works on every site or hopping by itself", "statement": "An elementwise formula of the arguments of an energy modifier (energy, coordinates, sites, the unit matrix of sub_id, constants) is computed for every orbital of every site from the values of that site, whichever of the documented arguments the function asks for; energy[sub_id == name] selects the sites of the sublattice.", "quantifier": "All formulas of any operators, all numbers of sites or hoppings, all sizes of energy matrices, all sets of requested arguments.", "why_tests_cant": "Shapes only clash or mix for several orbitals, and the wrong result without an exception needs as many sites as orbitals; the tests of multi-orbital modifiers ask for x, y, z only.", "anchors": ["pybinding/modifier.py", "pybinding/support/structure.py", "pybinding/support/alias.py", "cppcore/include/hamiltonian/HamiltonianModifiers.hpp"]}
{"id": "C100", "title": "The local density of states does not depend on numbering, gauge or magnetic origin", "statement": "Two Hermitian matrices which differ by a permutation of the sites and a phase per site have the same local and total density of states and Green's functions that differ by the two phases; complex conjugation keeps the density and transposes the Green's function; changing the sign of the matrix and of the bounds mirrors the density, and hence the density of a bipartite model is symmetric in energy. In particular, in a constant magnetic field the density of a finite system does not depend on where the origin of the coordinates is, and for a model with real energies reversing the field keeps the density and transposes the Green's function.", "quantifier": "All sizes of matrices, all permutations and phases, all kernels, broadenings, energies, matrix formats and KPM algorithms; all finite systems, fields and displacements.", "why_tests_cant": "Tests compare one algorithm with another on a few models; the symmetry concerns every pair of gauges and every origin.", "anchors": ["cppcore/include/kpm/Core.hpp", "cppcore/src/kpm/Core.cpp", "cppcore/include/kpm/Bounds.hpp", "cppcore/include/kpm/calc_moments.hpp", "pybinding/modifier.py", "tests/test_kpm.py"]}
{"id": "C101", "title": "The densities follow the unit and the zero of energy", "statement": "If a Hamiltonian, its spectral bounds, the broadening and the energies are given in another unit (factor c) and from another zero (shift v), then the local and total density of states are divided by c and belong to the shifted energies, and so does the Green's function.", "quantifier": "All Hermitian matrices, factors c > 0, shifts, bounds, kernels, broadenings, energies, formats and algorithms.", "why_tests_cant": "The deviation is of the order of 1e-8 and appears only when the middle of the spectrum is within 1e-4 half widths of zero; tests use models symmetric around zero or far away from it.", "anchors": ["cppcore/include/kpm/Bounds.hpp", "cppcore/src/kpm/Core.cpp", "cppcore/include/kpm/reconstruct.hpp"]}
{"id": "C102", "title": "The matrix of a periodic model is the crystal's tight-binding operator on Bloch waves, and its eigenvalues are the crystal's energies", "statement": "For every lattice made with the API and every periodic system (any period, any set of sites within it; bonds reach at most one cell or the period is one cell): the matrix applied to the values of a wave on the sites of the system gives the values of the tight-binding operator of the infinite crystal, and a number is an eigenvalue of the matrix at wave vector k exactly when the tight-binding equation on all periodic images of the sites has a non-zero solution that whole periods T multiply by exp(-i k T).", "quantifier": "Every lattice, block, period, set of sites, multi-orbital energies, phase function and wave; every scalar ring with conjugation.", "why_tests_cant": "The infinite crystal cannot be built; tests compare a few band energies of graphene with closed formulas.", "anchors": ["cppcore/src/Model.cpp:make_system", "cppcore/src/system/System.cpp:populate_boundaries", "cppcore/include/hamiltonian/Hamiltonian.hpp", "pybinding/solver.py:calc_bands"]}
{"id": "C103", "title": "Band folding: a supercell has the energies of the small cell at all wave vectors that fold onto its own", "statement": "Given two periodic systems of the same lattice with the same sites, the second with periods c1, c2, c3 times those of the first: at every wave vector k a number is an eigenvalue of the large matrix exactly when it is an eigenvalue of the small matrix at one of the wave vectors k + sum of (g_d / n_d) b_d, where b_d are the reciprocal vectors, n_d the long periods in cells and 0 <= g_d < c_d.", "quantifier": "Every lattice, block, pair of periods, set of sites, multi-orbital energies and wave vector; bonds reach at most one cell or the period is one cell.", "why_tests_cant": "Compares two different builds of the program at infinitely many wave vectors; tests build one system.", "anchors": ["cppcore/src/Model.cpp:make_system", "cppcore/src/system/Symmetry.cpp", "cppcore/src/system/System.cpp:populate_boundaries", "cppcore/include/hamiltonian/Hamiltonian.hpp", "pybinding/lattice.py:reciprocal_vectors"]}
{"id": "C104", "title": "The workload in the report of a kernel polynomial calculation is the work that was done", "statement": "The number of matrix elements a KPM report states (and derives its speed and its removed percentage from) is the number the moment loops go through: exact for equal source and destination without size optimisation, within two whole products with it; for different ones one product too many, within one product with size optimisation. The optimised count never exceeds the plain one. When the report says the whole system was used, it was.", "quantifier": "Every matrix, target indices, number of moments, both matrix formats, all four algorithm combinations.", "why_tests_cant": "The counters are only compared with hand-made numbers for a few systems; nothing counts the work of the loops themselves.", "anchors": ["cppcore/src/kpm/Stats.cpp:reset", "cppcore/src/kpm/OptimizedHamiltonian.cpp:num_nonzeros", "cppcore/include/kpm/OptimizedHamiltonian.hpp:uses_full_system", "cppcore/include/kpm/calc_moments.hpp", "cppcore/src/kpm/Core.cpp:conductivity"]}
{"id": "C105", "title": "A local density computed with few moments depends only on the surroundings of the site", "statement": "If two Hamiltonians, of any sizes and numberings, look the same up to r hops around a site (nothing is asked of hops leading out of that region), then all diagonal Chebyshev moments up to number 2r+1 are equal at that site, so calc_ldos gives the same values for both whenever the broadening calls for at most 2r+2 moments; with the Jackson kernel this holds for a broadening of at least pi a/(2r-2). The Green's function between that site and one in the region agrees with up to r+2 moments. Changes farther away than r hops (defects, fields, edges) therefore change nothing.", "quantifier": "All Hermitian matrices of any sizes, all radii, kernels, energies, algorithm and format combinations.", "why_tests_cant": "Tests compare finite systems at a tolerance and cannot separate a truncated neighbourhood (as the size optimisation uses) from an approximate one.", "anchors": ["cppcore/include/kpm/calc_moments.hpp", "cppcore/src/kpm/OptimizedHamiltonian.cpp", "cppcore/src/KPM.cpp:calc_ldos", "cppcore/src/KPM.cpp:calc_greens", "cppcore/src/kpm/Kernel.cpp"]}
{"id": "C106", "title": "Nothing printed during a parameter sweep is lost to the progress bar", "statement": "While a ProgressBar is shown, standard output and error are captured. However the bar is moved and refreshed and whatever the program prints in between: the bar raises nothing, gives the two streams back at the end, and the log file holds the line of the last value followed by everything that was printed, each stream in its own order, nothing lost or doubled. If the program prints whole lines, the terminal looks as if they had been printed without a bar, with the bar below. The line has exactly the width of the bar, and value/size of the room between its brackets is marked.", "quantifier": "All widget lists whose line has the width of the bar (the default bar with values up to its size is shown to be one), all sequences of prints, updates and refreshes.", "why_tests_cant": "A test sees one sequence of prints, and captures output itself with the same device, so the loss of text shows only in a terminal session.", "anchors": ["pybinding/utils/progressbar.py:make_line", "pybinding/utils/progressbar.py:StdCapture", "pybinding/utils/progressbar.py:StreamOutput", "pybinding/utils/progressbar.py:FileOutput", "pybinding/utils/progressbar.py:refresh", "pybinding/utils/progressbar.py:update", "pybinding/utils/progressbar.py:stop"]}
{"id": "C107", "title": "The order in which the parts of a model are given does not matter", "statement": "Take two lists of configuration calls (constructor arguments, add, attach_lead, set_wave_vector, clear_*_modifiers) in which the calls about each part of the model - primitive size, shape, symmetry, wave vector, leads, structure modifiers with generators, onsite modifiers, hopping modifiers - come in the same order; calls about different parts may be interleaved in any way. Then the two models have the same system, Hamiltonian and leads, and the same calls raise. With queries in between the same holds when no modifier is removed and all calls are accepted.", "quantifier": "All lattices, shapes, modifiers and registries; all lists of calls, including rejected ones.", "why_tests_cant": "The number of interleavings is exponential; tests use one order of arguments.", "anchors": ["cppcore/src/Model.cpp:add", "cppcore/src/Model.cpp:attach_lead", "cppcore/src/Model.cpp:set_wave_vector", "cppcore/include/Model.hpp", "pybinding/model.py:add"]}
{"id": "C108", "title": "Durations and large numbers are printed right to the digits shown", "statement": "Every duration is printed, by the C++ and by the Python part, as a text with one reading; that reading is the duration rounded to the last digit shown or with the rest cut off; minutes and seconds stay below 60; from a millisecond on it is right to a tenth (C++) or a twentieth (Python); a longer duration is never printed as a shorter one, across every change of unit. The two parts print the same text except where only the C++ part cuts off: 10-100 ms and 20-60 s with a fraction that rounds up. A number with an SI suffix shows three digits and is right to one in two hundred from 0.1 up to 999.5 G.", "quantifier": "All durations, in nanoseconds, and all rational numbers.", "why_tests_cant": "The order across the six changes of unit and the agreement of two implementations are statements about all durations; tests print a dozen of them.", "anchors": ["cppcore/src/utils/Chrono.cpp:str", "pybinding/utils/time.py:pretty_duration", "cppcore/include/support/format.hpp:with_suffix", "pybinding/utils/misc.py:with_suffix"]}
{"id": "C109", "title": "Rounding errors of the moments grow with the square of the number of moments, not faster", "statement": "Let every addition, subtraction and multiplication have a relative error of at most u, and let sums be added up in any order. For a Hermitian scaled matrix with energies in [-1, 1], at most W entries per row and row sums of at most S, the n-th moment between two states is off by at most 2 (W + 2)(1 + S) u n (n + 1) |r0|, and the moments of one state, computed two at a time, by the corresponding bound, as long as that bound is below the size of the vectors, whatever the storage format, the reordering, the size optimisation and the interleaving. Complex arithmetic built from real operations, in particular rounding to p binary digits, meets the assumption with 3 times the real error. The quadratic growth is attained.", "quantifier": "All arithmetics with bounded relative error, all orders of summation, all matrices, slice maps, algorithm options, start vectors and numbers of moments.", "why_tests_cant": "The three-term recursion amplifies every earlier error; whether the sum of them grows linearly, quadratically or exponentially is decided by all errors together. Tests compare a few hundred moments of small systems with a loose tolerance.", "anchors": ["cppcore/include/compute/kernel_polynomial.hpp:kpm_spmv", "cppcore/include/compute/detail.hpp:mul", "cppcore/include/kpm/Starter.hpp:make_r1", "cppcore/include/kpm/calc_moments.hpp:basic", "cppcore/src/kpm/default/collectors.cpp:DiagonalCollector"]}
{"id": "C110", "title": "The vector instructions do the arithmetic of the plain kernels on aligned addresses", "statement": "On SSE, AVX and AVX2, for float and double and for complex numbers of either, gathering picks the elements at the given indices in order, and the register arithmetic (complex product from permutations and alternating addition, conjugation, sums, splats) equals the arithmetic of the scalars in every lane. The ELLPACK kernels for one vector and for a batch of vectors, as written with these instructions, compute H x - y and the two sums of the diagonal moments on the chosen rows and leave the other rows as they are, for a matrix with at least one stored element. Every aligned load and store gets an address which is a multiple of its size and stays inside its array.", "quantifier": "All instruction sets, scalar types, matrices with a stored element, vectors, row ranges and alignments.", "why_tests_cant": "Each build runs one instruction set and the lane arithmetic differs between them; a wrong permutation shows up only in imaginary parts, a misaligned address only for particular numbers of rows.", "anchors": ["cppcore/include/support/simd.hpp:gather", "cppcore/include/support/simd.hpp:complex_mul", "cppcore/include/support/simd.hpp:split_loop", "cppcore/include/compute/kernel_polynomial.hpp:kpm_spmv", "cppcore/include/compute/kernel_polynomial.hpp:kpm_spmv_diagonal", "cppcore/include/numeric/traits.hpp:aligned_size", "cppcore/include/numeric/ellmatrix.hpp:EllMatrix"]}
{"id": "C111", "title": "The computed density of states converges to the exact one", "statement": "Let the local density of states at an orbital be computed with the Jackson kernel for any Hermitian Hamiltonian whose energies lie within the bounds. Its average over the energy with any weight function g differs from the exact value, the sum over all states of |psi(i)|^2 g(E), by at most the broadening times the largest slope of g; for every continuous g it tends to the exact value as the broadening goes to zero. Its integral over a window of energies lies between the weight of the states farther than d inside the window and that of the states at most d outside of it, up to (broadening/d)^2, and the local densities of all orbitals together count the states of the window in the same sense. The density of states of a start vector has the same property with the squared overlaps as weights.", "quantifier": "All Hermitian matrices within the bounds, orbitals, start vectors, broadenings, matrix formats, algorithm choices, windows, Lipschitz and continuous weight functions.", "why_tests_cant": "A test compares a curve with a reference at some energies of some system; that the curve tends to the spectrum, and how fast, for every system is a statement about a limit.", "anchors": ["cppcore/src/kpm/Kernel.cpp", "cppcore/include/kpm/reconstruct.hpp", "cppcore/include/kpm/Bounds.hpp", "cppcore/src/kpm/Core.cpp", "cppcore/src/KPM.cpp"]}
{"id": "C112", "title": "A plotted site has its own place, size and colour", "statement": "In a plot of a structure every site is drawn exactly once, at its own coordinates plus the offset, with its own value and radius, those in front last. On flat axes this holds for a common radius and for one radius per site. On 3D axes it holds for a common radius; with one radius per site positions and values are sorted by depth but the radii are not, so each circle has the radius of another site (refuted with two sites). With enough colours different values have different colours; this fails for whole numbers, whose value itself is the number of the colour (values 2 and 3 with two colours have the same one), and holds for other data, whose rank counts, and for whole numbers from zero below the number of colours. Two or three different letters choose the axes whatever the order of a Python set, a repeated letter is an error. Radii made from data run from the smaller radius at the smallest value to the larger one at the largest value and keep the order; refuted for data which differ by at most 1e-8, such as small densities, which all have the larger radius.", "quantifier": "All lists of sites, radii, offsets, projections, argsort functions with any order of equal elements, lists of values and colours, set orders.", "why_tests_cant": "Whether a circle belongs to its site is not visible in a comparison of pictures with equal radii, and argsort leaves the order of equal elements open.", "anchors": ["pybinding/system.py", "pybinding/support/collections.py", "pybinding/pltutils.py", "pybinding/utils/misc.py", "pybinding/results.py"]}
{"id": "C113", "title": "The matrix does not depend on the scalar type it is stored in, nor on the units", "statement": "The matrix of a model is stored as real numbers unless an energy, a modifier or a translational symmetry asks for complex ones, and built again as complex if a modifier returns complex numbers. The result is always the matrix that complex numbers would give, and multiplying all energies by a factor multiplies the matrix by it. Refuted: the tests use Eigen's isZero, true up to 1e-12, so in a unit in which the energies are 1e-13 (in joule, an electronvolt is 1.6e-19) onsite energies are left out and imaginary parts are dropped. True whenever no energy other than zero, and no imaginary part other than zero, is below the limit, before and after the change of unit. In the same way a lattice keeps every nonzero vector only if one of its components exceeds 1e-5; graphene in metres has a single lattice vector.", "quantifier": "All scalars with conjugation and a real part, tests, registries, systems, modifiers, buffer sizes, wave vectors, factors, vectors.", "why_tests_cant": "Tests run with energies of order one, for which the limits are invisible; that real and complex builders agree must hold for every system and modifier.", "anchors": ["cppcore/src/Model.cpp:is_complex", "cppcore/src/Model.cpp:make_hamiltonian", "cppcore/src/system/Registry.cpp:any_complex_terms", "cppcore/src/system/Registry.cpp:has_nonzero_energy", "cppmodule/src/modifiers.cpp:ExtractModifierResult", "cppcore/src/Lattice.cpp:Lattice::Lattice", "cppcore/include/hamiltonian/HamiltonianModifiers.hpp"]}
{"id": "C114", "title": "Arrays keep their type, shape and elements through type-erased references", "statement": "A type-erased array reference is matched to generic code exactly if its scalar type is one of the listed ones, and with that type; a pair is matched exactly if both types are listed and have the same precision, otherwise an exception is thrown. The strategy of a solver gets the type of the Hamiltonian, and for each of the four types the density of states functions see exactly its energies and the columns of its wave functions. Every Eigen vector or matrix, of either storage order, arrives in numpy with its type, shape and elements. Refuted: that a matched matrix has the elements of the original one (the storage order is not looked at, a row major matrix matched as column major is scrambled), and that a std::vector becomes a one-dimensional array (the overload for a vector which can be changed passes ndim and order as sizes and makes a 1 x 1 x n array). True for equal orders and for constant vectors.", "quantifier": "All element types, lists of types, references, functions, matrices, orders, sizes.", "why_tests_cant": "Tests run one or two scalar types and one order; overloads which the bindings do not call yet are not tested at all.", "anchors": ["cppcore/include/numeric/arrayref.hpp:get_tag", "cppcore/include/numeric/arrayref.hpp:try_match", "cppcore/include/numeric/arrayref.hpp:try_match2", "cppcore/include/numeric/arrayref.hpp:match2sp", "cppcore/include/detail/typelist.hpp:Filter", "cppcore/include/numeric/dense.hpp:arrayref", "cppcore/include/numeric/dense.hpp:MakeContainer", "cppcore/include/detail/strategy.hpp:MakeStrategy", "cppcore/src/solver/Solver.cpp:calc_spatial_ldos", "cppmodule/include/cast.hpp:arrayref_caster"]}
{"id": "C115", "title": "Circles, limits and palettes of plots", "statement": "The radius proposed for lattice sites keeps the circles of different sites of one unit cell apart if the fraction is below one half, and of each column of sublattices exactly one, a highest one, counts as visible. Refuted: that no circles of the lattice overlap, because distances between cells are not looked at (a chain with sites at 0 and 0.9 of a cell); true if no two sites are closer than the closest ones of a cell. A minimum length or a margin keeps the centre of an axis, hides nothing and gives exactly the wanted length; a structure plot shows everything, at least 0.54 nm and 0.4 of the other axis. Refuted for inverted axes: they are turned around, and a long inverted axis is cut by the minimum ratio. A palette has the asked number of colours; refuted: that it starts from the given colour number, since the first colours are taken before counting; true for all colours or start 0.", "quantifier": "All lattices, fractions, pairs of sites, limits, lengths, ratios up to one, margins, palettes, numbers of colours, starts.", "why_tests_cant": "Pictures are compared for a few lattices in which the closest neighbours are inside the cell, and never for inverted axes.", "anchors": ["pybinding/lattice.py:site_radius_for_plot", "pybinding/lattice.py:_visible_sublattices", "pybinding/pltutils.py:set_min_axis_length", "pybinding/pltutils.py:set_min_axis_ratio", "pybinding/pltutils.py:add_margin", "pybinding/pltutils.py:get_palette", "pybinding/system.py:decorate_structure_plot"]}
{"id": "C116", "title": "Building and visiting compressed sparse rows", "statement": "Filling a matrix row by row, with the columns of a row in any order and empty rows opened or skipped, gives exactly the arrays of the rows sorted by column, repeated columns in their order of insertion, if the reserved space suffices; one element more is written outside of the arrays. Visiting visits every element once with its row, in order; visiting in buffers of a positive size hands out the same elements in full buffers and a last one which is not empty unless the matrix is, and the reported place of each buffer gives back the same elements at the same positions. The largest number of elements of a row and the rows seen by scipy are those of the matrix.", "quantifier": "All matrices, element types, orders of insertion, choices of opened empty rows, reserved sizes, buffer sizes.", "why_tests_cant": "The inserter and the buffered loops have no test at all; the other loops are tested through products for a few matrices.", "anchors": ["cppcore/include/numeric/sparse.hpp:CompressedInserter", "cppcore/include/numeric/sparse.hpp:sparse::Loop", "cppcore/include/numeric/sparse.hpp:max_nnz_per_row", "cppcore/include/numeric/sparse.hpp:csrref", "cppmodule/include/cast.hpp:csrref_caster"]}
{"id": "C117", "title": "Vectors of fixed size from arrays", "statement": "A number, or an array of one axis with at most as many elements as the vector has components, becomes the vector of its elements followed by zeros, for any distance of the elements in memory which is a whole number of elements, also negative ones although they are divided as unsigned numbers; arrays with more axes or more elements are not accepted. A vector given to Python and back is unchanged. Refuted: for other distances (a field of packed records) wrong memory is read, and lengths are cut to 32 bits, so that an array of 2^32+2 elements is accepted and one of 2^31 elements is copied with a negative length.", "quantifier": "All arrays, memories, scalar types whose size divides 2^64, dimensions, strides, base addresses.", "why_tests_cant": "Tests pass lists and contiguous arrays; none passes reversed views, record fields or broadcast arrays.", "anchors": ["cppmodule/include/cast.hpp:static_vec_caster::load", "cppmodule/include/cast.hpp:static_vec_caster::cast"]}
{"id": "C118", "title": "Recorded calls and the files named after them", "statement": "The text of a recorded call (as printed for modifiers and sweeps), read as a call, binds exactly the arguments of the original one, with unnamed arguments first; the named arguments are all arguments but *args, each once with its value, in order. Refuted with positional-only parameters, which are left out. The file name made for a sweep is never empty and contains no space, slash, dot or comma and keeps all other characters of names and values in order, so results stay in the current directory. Refuted: that calls with different arguments get different files, because removing the dot merges 1.5 and 15; true for argument texts of equal lengths without removed characters.", "quantifier": "All signatures (defaults, *args, keyword-only, **kwargs), calls, values, texts of values.", "why_tests_cant": "The documentation has six calls of one function; file names are never checked for collisions.", "anchors": ["pybinding/support/inspect.py:CallSignature", "pybinding/support/inspect.py:get_call_signature", "pybinding/parallel.py:Config.make_filename"]}
{"id": "C119", "title": "Deferred computations of a sweep", "statement": "A deferred local density of states is computed at most once: after the first success the result is never changed by anything done to solvers or other jobs, and after an exception it can be computed again. A started job gets its result when it ends, whatever other jobs do meanwhile. Its value is the density of the model which its solver holds when the computation ends. Refuted: that this is the model at the time of the request, because only a reference to the solver is kept; true if the solver gets no new model in between. Refuted: that jobs can run in threads in any order, because two jobs of one solver race for its state; with one solver per job every interleaving of threads is free of races and gives every job the density of its own model.", "quantifier": "All sequences of creating solvers, changing their models, requesting, starting, ending and reading computations; all models including failing ones, all arguments.", "why_tests_cant": "Tests make one solver per job and run few schedules; they do not share a solver between jobs or repeat failed computations.", "anchors": ["cppmodule/include/thread.hpp:Deferred", "cppmodule/src/kpm.cpp:deferred_ldos", "cppmodule/src/parallel.cpp:parallel_for", "cppcore/src/KPM.cpp:set_model"]}
{"id": "C120", "title": "Landau levels of graphene", "statement": "For every field above zero and both corners of the Brillouin zone, the energies of localised electrons of the graphene lattice with constant_magnetic_field, in first order in the momentum and the field, are exactly plus and minus the values landau_level(field, n) for n = 0, 1, 2, ...: every value belongs to a rapidly decreasing wave, and there are no others. The function returns a number exactly for fields above zero and levels from zero. Level zero is at zero energy; four times the field, or four times the level, doubles the energy.", "quantifier": "All fields, levels, momenta along x, both corners, all rapidly decreasing wave functions.", "why_tests_cant": "The formula with its unit conversions is compared with the lattice in a figure only; a test can look at some levels of one finite system, never at all levels or at the absence of others.", "anchors": ["pybinding/repository/graphene/utils.py:landau_level", "pybinding/repository/graphene/modifiers.py:constant_magnetic_field", "pybinding/repository/graphene/constants.py", "pybinding/constants.py"]}
{"id": "C121", "title": "Options of structure plots", "statement": "Plotting a structure or data on it draws the home cell, its periodic copies and the bonds across the boundaries. Every option that the user gives for sites, hoppings or boundaries reaches each call that draws them; options that are not given come from the defaults, boundaries look like hoppings except for the colour, and an unknown option or one that the program itself sets for the call is an error. Processing processed options again changes nothing.", "quantifier": "All dictionaries of options, singular and plural forms, numbers of copies and bonds, with and without a default radius.", "why_tests_cant": "The tests compare a few pictures with default options; a lost option in one of the three nested merges of dictionaries is visible only with just that option and a periodic structure.", "anchors": ["pybinding/utils/misc.py:with_defaults", "pybinding/system.py:structure_plot_properties", "pybinding/system.py:plot_periodic_boundaries", "pybinding/results.py:Structure.plot", "pybinding/results.py:StructureMap.plot"]}
{"id": "C122", "title": "Plots of eigenvalues", "statement": "The heat map of eigenvalues shows every state exactly once, at its index and its energy, with the colour and the size of its own probability, or what the user gave for it; dots of larger probability are larger and drawn above the others, and the sizes are within the limits that were asked for. Without probabilities the plain plot is drawn. The lines join the first and the last state of every maximal run of degenerate states, and every state has its own number.", "quantifier": "All lists of energies and probabilities, all sorting procedures, sizes, and options for colours and sizes.", "why_tests_cant": "The one test compares a picture for one system; which dot belongs to which state is not visible when energies are similar, and ties are sorted in any order.", "anchors": ["pybinding/results.py:Eigenvalues.plot", "pybinding/results.py:Eigenvalues.plot_heatmap", "pybinding/results.py:Eigenvalues._decorate_plot", "pybinding/solver.py:find_degenerate_states"]}
{"id": "C123", "title": "Smoothing and clipping of data on sites", "statement": "Smoothing a spatial map replaces the value of each site by the average over the sites nearer than sigma, with a Gauss function of the distance as weight. The results stay between the smallest and the largest value that enter; equal values stay as they are. Clipping changes exactly the values outside the limits, to the nearest limit.", "quantifier": "All positions, data, widths and limits; data of real numbers and of integers.", "why_tests_cant": "There is no test of either; a wrong average looks plausible in a picture of a system that is symmetric about the origin.", "anchors": ["pybinding/results.py:SpatialMap.convolve", "pybinding/results.py:SpatialMap.clipped"]}
{"id": "C124", "title": "Labels in the picture of a lattice", "statement": "The picture of a lattice has a label for each cell that is joined to the home cell by a hopping, in either direction, and for no other: the index of the cell, at the centre of its sites moved out by five percent. The text is aligned so that it goes away from the home cell, and different cells have different texts.", "quantifier": "All lattices of one to three dimensions, hopping terms, sites and viewing axes.", "why_tests_cant": "Pictures of lattices are compared for a few flat lattices; the labels of a lattice of three dimensions seen from the side are never looked at.", "anchors": ["pybinding/lattice.py:Lattice.plot", "pybinding/pltutils.py:align"]}
