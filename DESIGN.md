# Design: a Rocq model of pybinding's C++ core

Source: `/repo` (dean0x7d/pybinding), C++ under `cppcore/` (and two small pieces of
`cppmodule/` and `pybinding/`), read as text. Nothing was built or run.

## 1. Approach

Each modelled C++ function becomes a small, total, computable Gallina function; every
definition carries a comment with file and lines, and any simplification. Files come in
three kinds:

* **model** files (`Verif.<Area>`): definitions only;
* **proof** files (`Verif.<Area>Proofs`): lemmas;
* **property** files (`Verif.Props*`): an independent specification, the theorem for each
  claim (proved by an `exact lemma`), non-trivial `Example`s that meet the hypotheses, and
  `Print Assumptions`.

Common conventions

* *Scalars.* Energies and amplitudes live in an arbitrary commutative ring with an
  involutive conjugation (section variables, generalised when the section closes, so every
  theorem quantifies over all such rings). Where the code divides by two, the ring also has a
  `half` with `half + half = 1`. Concrete instances (Z, Gaussian integers, Gaussian
  rationals) are used in examples and refutations. **Floating point is modelled as exact
  arithmetic**: rounding, NaN, infinities and overflow are not modelled, neither is the float to
  double distinction (except where it is a flag in the model state machine). C109 is the exception:
  there every operation of the KPM kernels has a bounded relative error.
* *Machine integers* are `Z` or `nat`: overflow of 32/64-bit indices is not modelled.
* *Outcomes.* Functions that can throw or run into undefined behaviour return
  `outcome A = Ok a | Throw e | UB`; out-of-range array accesses are `UB`, never a silent default.
* *User callbacks* (shape `contains`, modifiers, generators) are arbitrary functions
  (universally quantified).
* *Threads* are modelled as small-step transition systems. Mutex-protected critical sections
  are atomic; condition-variable waits, notifications and wake-ups are explicit steps, so lost
  wake-ups would show up as deadlocks.
* *Refutations.* Where the claim a user relies on is false of the faithful model, the file
  proves `..._refuted` with a concrete witness, and a second theorem with the extra hypothesis
  that makes it true. Such properties have status `partial` in `MANIFEST.json`.

## 2. Per property: what is modelled and how it is proved

| id | modelled code | proof plan |
|----|---------------|------------|
| C01 | `Lattice::add_*`, `HoppingTerm::operator==` | invariant over call histories (induction over a list of calls) |
| C02 | `site_registry`, `hopping_registry`, `add_alias` | refuted (alias declared before a sublattice; alias of an alias); proved for histories where every alias call comes after the last sublattice call and names a non-alias |
| C03 | all `Lattice` mutators as state × outcome | refuted for `add_hopping(energy)`; proved for all others and for the energy overload when the energy is already registered |
| C04 | `OptimizedUnitCell` constructor | permutation + sortedness of the two stable sorts, counting argument for symmetry |
| C05 | `reset_idx`, iterators, slices, `generate_positions` | arithmetic over `Z`/`nat`, induction on extents |
| C06 | `count_neighbors`, `clear_neighbors`, `remove_dangling` | fuel-indexed recursion, invariant `count = number of valid neighbours`; result equals the greatest fixpoint; the unconditional claim is refuted (sites with too few bonds from the start survive) |
| C07 | `get_finalized_indices`, `populate_system`, `CompressedSublattices::add/verify` | induction over the block order |
| C08 | `populate_system`, `for_each_neighbor` | membership and `NoDup` of generated COO lists |
| C09 | `make_masks`, `translations`, `area`, `apply`, `populate_boundaries` | arithmetic; unconditional claim refuted (second-neighbour bonds with period ≥ 2); proved when in every enabled direction the period is 1 or bonds reach at most one cell; exact set of stored bonds and sharpness of the condition in `BoundaryExact.v`, `PropsBoundary.v` |
| C10 | `area`, `boundary_slice`, `SliceIndex`, `SpatialSlice` | bounds; refuted when the period exceeds the block |
| C11 | `find_bounds` | arithmetic over rationals with C++ truncation |
| C12 | `CompressedSublattices` | commuting diagrams with the plain list |
| C13 | `remove_invalid`, `HoppingBlocks::filter`, `slice` | refuted (indices are not renumbered); proved for the part that holds (positions, sublattices, surviving pairs; full claim when the removed sites form a suffix) |
| C14 | `HoppingBlocks::append` | set equality; direction part refuted for complex energies; the exact element is proved for both orders (a > b gives the conjugate transpose) |
| C15 | `HoppingBlocks` serialise, `nnz`, `count_neighbors`, `tocsr` | list induction |
| C16 | `to_hamiltonian_indices`, `expanded_positions`, `start_index`, `IndexTranslator` | partition lemma; builder agreement proved for norb-sorted tables, refuted in general |
| C17 | `build_main`, `build_periodic`, energy checks | symmetry of the emitted triplet list under swap+conj; refuted for upper-triangular generator energies |
| C18 | `apply_to_onsite`, `apply_to_hoppings_impl` (fast and slow path) | sum-of-triplets semantics equals the mathematical definition, for systems whose matrices fit their sites; the lattice API only builds such systems; refuted for misfitting generator energies |
| C19 | `Sliced`, `HoppingBuffer`, `IndexTranslator::for_each` | chunking lemma; refuted for matrices with more than 100000 entries (step 0) |
| C20 | `Model` as a state machine | invariant "caches = what a fresh model would build" over abstract builders; refuted for `clear_*_modifiers`, rejected calls, failed leads and the sticky complex flag |
| C21 | same | refuted (`add(SiteGenerator)`, `add(Primitive)`, `add(Shape)`) ; proved for `attach_lead` |
| C22 | `parallel_for` (ParallelFor.v) | invariants on queues and local states; potential function bounds every schedule; stuck implies finished; zero threads hang |
| C23 | `Queue` (Threads.v: mutex sections as steps, waits, notifications and spurious wake-ups explicit) | ghost history equals the event trace; wake-up counting invariant |
| C24 | `ThreadPool` (ParallelFor.v) | as C22; zero workers refuted |
| C25 | `create_reordered` (Kpm.v) | BFS invariant: visited states are numbered by distance; an unreachable state leads to an out-of-range read (KpmReorder.v, KpmOptimized.v) |
| C26 | `calc_moments`, `SliceMap::index` | light-cone argument: entries beyond the slice cannot influence the collected ones |
| C27 | collectors, `make_r1` | Chebyshev product identity by induction; adjointness |
| C28 | `csr_to_ell`, `spmv`, `split_loop` (KpmEll.v) | loop invariants; both builds meet the same kernel specification as CSR; refuted for a matrix without entries (vectorised build) |
| C29 | `BatchAccumulator`, `BatchConcatenator`, batching (KpmBatch.v) | transition system of takes and deliveries; invariant: partial sum = sum over delivered ranges |
| C30 | `calc_greens*`, `MultiUnitCollector` | refuted (`row == size` accepted; transposed element for complex matrices); proved for real symmetric matrices and in-range indices (KpmCore.v, KpmFinal.v) |
| C31 | `calc_conductivity` check | refuted ("xq"); exact behaviour proved for every string |
| C32 | `round_num_moments`, `Core::moments` | modular arithmetic |
| C33 | `find_nearest`, `sublattice_range` | argmin induction; refuted for a sublattice that became empty by filtering |
| C34 | `WithinPolygon` | parity, rotation and reversal invariance; refuted for slivers |
| C35 | `leads::Structure`, `make_h0`, `make_h1` | contact list = junction at the attachment slice; tables of bonds = lattice terms; `h0`, `h1` elements = bulk elements (`BulkSpec.v`) when terms against the lead have self-adjoint energies; refuted for complex hoppings |
| C36 | `find_bounds`, `WithinPolygon`, freeform vertices | a closed polygon crosses a horizontal line an even number of times, so a point inside lies between two sides and every linear coordinate of it between those of two vertices; refuted for sublattices displaced by more than one lattice vector |
| C37 | `Line`, `is_acute_angle` | sign of the dot product; refuted at the end points (0/0) |
| C38 | `Primitive`, `Foundation(Primitive)` | division arithmetic |
| C39 | setters of `Model` | refuted for shapes (lattice offset accumulates); equality of configurations for the rest |
| C40 | `create_attachment_area`, `attachment_slice`, `Junction`, `shape_slice` | slices as rows of columns; the fill loop by induction on the distance from the entry side |
| C41 | same | in-range indices from the overlap of the boxes; refuted when the box misses the block |
| C42 | `leads::Structure`, `Leads::create_attachment_area` | attaching does not move the junction of that lead, and later leads that keep clear of it neither (`LeadMany.v`); refuted for two leads sharing a row |
| C43 | `make_system` + `ham::make` | tables of bonds and boundaries restricted to one pair of sites = terms of the lattice; sums over boundaries re-indexed to sums over translations (`BlochProofs.v`) |
| C44 | `apply(StructureModifier)` on foundation and system | disjoint segments cover all sites; refuted for aliases around a generator |
| C45 | `make_system` | modifiers as relations between site sets, then the simple build and C43 |
| C46 | generators, `register_family` | extension of the tables by one block or one family leaves the elements of the rest (`GenProofs.v`, `ExtendProofs.v`); refuted for fewer orbitals |
| C47 | `make_system`, `leads::Structure` | generators only append positions; refuted for state modifiers after a generator |
| C48 | `Lattice` and `Model` configuration calls, `SiteRegistry`, `HoppingRegistry` | independent `permits` predicates; invariants of call histories (`Registry*.v`, `PropsConfig.v`) |
| C49 | `FEAST::solve`, `call_feast`, `change_hamiltonian` (array extents and loops only) | MKL as an arbitrary function with a contract; potential function bounds the retries; refuted for guess 1, recycling over sizes, empty intervals |
| C50 | `BaseSolver`, `_SolverPythonImpl`, `KPM` as state machines over the class Model | invariant "strategy holds the matrix of the shown model"; Model keeps its Hamiltonian; refuted for changes in place (`Solver*.v`, `PropsSession.v`) |
| C51 | `Core` with cached bounds and optimised matrix | invariant on caches; every query equals the one computed from scratch; refuted for empty index lists (`KpmState*.v`, `PropsSession.v`) |
| C52 | kernels, scaling factors, `SpectralDensity` over the reals (`Spectral.v`) | Chebyshev moments form a positive form (`KpmGram.v`); Jackson coefficients are correlations of sines, Lorentz coefficients a convex sequence (`RSum.v`, `SpectralProofs.v`, `PropsSpectral.v`) |
| C53 | same | moments in the eigenbasis; integrals of cosines by antiderivatives (`RInt.v`, `SpectralLine.v`); variance from g_1 and g_2; every Hermitian matrix has such an eigenbasis (`SpectralTheorem.v`, `PropsEigen.v`) |
| C54 | `GreensFunction` | diagonal moments are real; sums compared term by term (`SpectralKubo.v`) |
| C55 | `KuboBastin` | factor (n-1)/n computed exactly; refuted with two samples |
| C56 | `hamiltonian_nnz` against `build_main` | sums of emitted triplets bounded slice by slice (`ReserveProofs.v`, `PropsReserve.v`; `max_hoppings` in `PropsEntry.v`) |
| C57 | `CalcDOS`, `CalcSpatialLDOS`, `calc_*` of `solver.py`, `reduce_orbitals` (`SolverPost.v`) | sums over blocks of rows; exchange of sums (`SolverPostProofs.v`, `PropsPost.v`) |
| C58 | `find_degenerate_states` | `np.split` at the breaks equals a recursive grouping; maximality by induction on the sorted index list |
| C59 | `calc_eigenvalues` | groups are disjoint, so averaging acts on each separately; unitarity exchanges sums; refuted with two orbitals (`PropsProb.v`) |
| C60 | `make_path` | offsets of the segments by induction over the points; floor of the length (`MakePathProofs.v`, `PropsPath.v`); refuted for a segment shorter than the step and for the shape check |
| C61 | `minmax_eigenvalues` | Lanczos vectors orthonormal by induction over the three-term recurrence in a real inner product space; tridiagonal form = energy on the Krylov space (`LanczosProofs.v`, `LanczosKrylov.v`); refuted for every real start vector of length 3 with a matrix built on it (`LanczosWitness.v`, `PropsLanczos.v`) |
| C62 | `tridiagonal_eigenvalues` | every Givens turn is an isometry of the coordinates; deflation changes the form by at most 2 eps times its bound; fuel never runs out (`TridiagProofs.v`, `LanczosOrtho.v`, `PropsLanczos.v`) |
| C63 | `graphene.monolayer` | run the lattice calls symbolically; squared distance is an integer quadratic form up to the two constants; shells by bounding it below (`GrapheneProofs.v`, `PropsGraphene.v`) |
| C64 | `graphene.monolayer`, Bloch Hamiltonian | `C43_one_cell` writes H(k) as a sum over the terms (`BlochTerms.v`); at K the phases are cube roots of one (`PropsDirac.v`) |
| C65 | `graphene.monolayer_alt`, `graphene.monolayer_4atom` | matrix elements of all three lattices as functions of the cell difference, division with remainder by two for the doubled cell (`SuperProofs.v`, `PropsSuper.v`) |
| C66 | `graphene.bilayer` | matrix elements and in-plane distances as functions of the cell difference; witness pair B1-B2 for the refutation (`BilayerProofs.v`, `PropsBilayer.v`) |
| C67 | `Lattice` as a whole | invariant relating the lattice object to the list of accepted calls (`PropsDeclared.v`); names of the form made up for unnamed energies are left to the library |
| C68 | `group6_tmd.monolayer_3band` | C67 gives the elements, the six neighbours are checked one by one with the rule for sqrt 3 (`PropsTmd.v`) |
| C69 | `phosphorene.monolayer_4band` | elements as functions of the cell difference, all pairs of sublattices under three symmetries; bounds on sine and cosine from the exact values at 30, 45 and 60 degrees (`PhosphoreneSpec.v`, `PhosphoreneProofs.v`, `PropsPhosphorene.v`) |
| C70 | `graphene.constant_magnetic_field` | modifier follows an element-wise rule (C18); matrix elements scaled; telescoping sum round a polygon against the shoelace formula (`GrapheneModifiers.v`, `MagneticProofs.v`, `PropsMagnetic.v`) |
| C71 | `graphene.mass_term` | element-wise rule (C18), Hermitian (C17); sublattice sums of conj(v) H v are conjugate to each other (`MassProofs.v`, `PropsMass.v`) |
| C72 | `calc_dos`, `calc_ldos` of `solver.py`, `Solver.cpp` | the Gaussian integral by differentiation under the integral sign (`GaussInt.v`), antiderivatives, linearity (`PropsDos.v`) |
| C73 | `reciprocal_vectors` of `lattice.py`, phases of `Hamiltonian.hpp` | Cramer's rule, duality, whole turns of the phase, conjugation of the element formula of C18 (`Reciprocal.v`, `PropsReciprocal.v`) |
| C74 | `brillouin_zone` of `lattice.py` | Selling's formula: six sectors of the plane, each spanned by two of the eight short vectors (`PropsBrillouin.v`) |
| C75 | `Lead.calc_bands` of `leads.py` | C35 plus translation invariance and Hermiticity of the bulk (`LeadBands.v`, `PropsLeadBands.v`) |
| C76 | `with_offset` of all classes in `shape.py` | invariant of all shapes that can be made (`made_ok`), translation invariance of the even-odd test (`PyShapeProofs.v`), witnesses (`PropsPyShape.v`) |
| C77 | `CompositeShape` and the operators of `shape.py` | set semantics, hull contract `hull_ok`, spans (`PropsPyShape.v`) |
| C78 | `rectangle`, `circle`, `regular_polygon`, `hexagon_ac` | C34 and C38 for the first two (`PropsNamedShapes.v`), chord lengths and rounding (`PropsRegular.v`) |
| C79 | `_process_modifier_args`, `_sanitize_modifier_result` of `modifier.py`, `ExtractModifierResult` of `modifiers.cpp`, numpy views (`ModifierLayout.v`) | mixed radix arithmetic of addresses, cases of numpy's order K (`ModifierLayoutProofs.v`, `PropsModifierLayout.v`); counterexamples |
| C80 | `PositionModifier` of `modifiers.cpp` (`PositionResult.v`) | invariant of the three stores; counterexample (`PropsPositionResult.v`) |
| C81 | `SplitName`, `AliasArray`, `AliasIndex` of `alias.py` (`AliasNames.v`) | induction over the map of names; counterexample (`PropsNames.v`) |
| C82 | `parallelize`, `Factory`, `ParallelFor`, `sweep`, `ndsweep` of `parallel.py`, `Sweep`, `NDSweep` of `results.py` (`Sweep.v`) | loop invariant over the retired jobs, mixed radix index, composition with C22 (`PropsSweep.v`) |
| C83 | `KwantFiniteSystem.hamiltonian_submatrix` of `kwant.py` (`Kwant.v`) | decompressed table (C12), exact condition; counterexample (`PropsKwant.v`) |
| C84 | `Model.add` of `model.py` over an abstract C++ model (`AddArgs.v`) | induction over argument trees (`PropsAddArgs.v`) |
| C85 | `strained_hopping`, `triaxial_strain` of `modifiers.py` (`GrapheneStrain.v`) | element-wise rule (C18); derivatives of the coupling at K, linear algebra with cube roots of one (`PropsStrain.v`) |
| C86 | `coulomb_potential`, `gaussian_bump` (`GrapheneStrain.v`) | element-wise rule (C18); monotone functions; counterexamples (`PropsPotential.v`) |
| C87 | `structure.py`, `Structure.__getitem__`, `cropped` (`StructureSlice.v`) | positions of an index, multiplicity of bonds, exact renumbering for masks (`SliceProofs.v`, `PropsSlice.v`) |
| C88 | `AbstractSites.find_nearest` (`StructureSlice.v`) | argmin with infinities; names from C81; counterexample (`PropsSlice.v`) |
| C89 | class `Sweep` (`SweepOps.v`) | case analysis of numpy indexing; counterexample (`PropsSweepOps.v`) |
| C90 | `Sweep._convolved` over the reals (`SweepConvolve.v`) | convolution of an impulse; counterexample (`PropsConvolve.v`) |
| C91 | `KPM::calc_spatial_ldos`, `System::sublattice_range`, `SpatialLDOS` (`SpatialLdos.v`) | block of a family (`SystemProofs.v`), slices of slices (C87), nearest site (C88); counterexample (`PropsSpatial.v`) |
| C92 | `_PythonImpl` of `chebyshev.py` (`PyKpm.v`) | product formula of Chebyshev polynomials (`KpmCheb.v`), both sides reduced to one density; counterexample (`PropsPyKpm.v`) |
| C93 | pickled states (`Pickle.v`), `support/pickle.py` (`SaveLoad.v`) | round trips piece by piece (`PicklePr.v`), parsing and printing of paths (`SaveLoadPr.v`); counterexamples (`PropsPickle.v`) |
| C94 | same as C57 | spectral theorem (`SpectralTheorem.v`: kernel or left inverse, coercive forms, one state after the other), overlaps between states of different energy vanish (`EigenProofs.v`); counterexample (`PropsStates.v`) |
| C95 | `Random.v`: the random starter, moments of `Core::dos` under any schedule, the loop of `Core::conductivity` with two generators | average over draws by recursion; mean and mean square deviation of a quadratic form by adding one site at a time (`Mean.v`); phases sum to zero, functions of the Hamiltonian in its states (`RandomProofs.v`); C29 and C53 (`PropsRandom.v`) |
| C96 | `PlotPeriodic.v`: sets with tolerance, shift sets, calls of plot_hoppings, end points of the lines, picture of a lead | distance in steps as specification; shift sets are spheres (`PlotPeriodicProofs.v`); counting calls by permutation; lines are bonds by C09's `image_bond` (`PropsPlot.v`); false as stated (three witnesses) |
| C97 | `Conductivity.v`: damping of the moment matrix, the calculation from random vectors to the returned number | the energy integral is linear in the moments, traces of four matrices: cyclic, adjoint, conjugate (`ConductivityProofs.v`); with C95 and C55 (`PropsConductivity.v`) |
| C98 | `Compress.v`: contributions to a position are added, columns of a row sorted (Eigen insert / coeffRef / setFromTriplets) | tight-binding matrix on (site, orbital) as specification (`PropsEndToEnd.v`); compression keeps elements and positions (`CompressProofs.v`); stored positions are symmetric (`HamHermitian.v`); then C45 and C53; with energy modifiers `BlochMods.v`, `PropsModified.v`; with generators every step keeps the system consistent (`PropsGenerated.v`) |
| C99 | `ModifierArgs.v`: `_process_modifier_args`, `Sites`, numpy broadcasting and boolean indices | value of a formula at a site as specification; induction over formulas with the family of shapes that occur (`PropsModifierArgs.v`); false as stated |
| C100 | `Kpm.v`, `Hamiltonian.v`, magnetic field of C70 | Chebyshev polynomials of a matrix carried along by a permutation and phases (`CovarianceProofs.v`, `PropsCovariance.v`); gauge function of a displacement for the Peierls phases (`PropsCovarianceField.v`) |
| C101 | `Spectral.v` (`make_scale`, `calc_ldos`, `calc_dos`, `calc_greens`) | equality of the scaled matrices (`PropsUnits.v`); false as stated for shifts |
| C102 | as C43 | `CrystalSpec.v` states the infinite crystal; `CrystalProofs.v` gathers the periodic images of each bond; `CrystalWaves.v` extends vectors to waves and back; `PropsCrystal.v` |
| C103 | as C102 | `FoldingProofs.v`: Fourier sums over the short period, one direction at a time; `PropsFolding.v` |
| C104 | `KpmStats.v`: report counters, counting kernels for the loops of `Kpm.v` | `KpmStatsProofs.v`: totals of the counting loops by slices, mirror symmetry of the sizes; `PropsKpmStats.v` |
| C105 | `Kpm.v`, `Spectral.v` | sites reached by n hops and equal surroundings stated on matrix elements; recursion vectors vanish outside n hops and agree inside, product formula doubles the number of moments (`LocalProofs.v`); `PropsLocality.v` |
| C106 | `ProgressBar.v` | terminal, merged streams and whole lines stated on their own (`ProgressSpec.v`); invariant over all events (`ProgressProofs.v`); `PropsProgress.v` |
| C107 | `ModelState.v` | parts of a model and calls about them listed on their own; componentwise simulation of the configuration; `PropsOrder.v` |
| C108 | `Durations.v` (rounding half to even, cutting off, SI buckets) | reading of a text with the unit of its last digit as an inductive relation; piecewise monotone functions; `DurationsProofs.v`, `PropsDurations.v` |
| C109 | `Rounding.v` (kernels over an arbitrary arithmetic) | relative error contract `accurate`, Euclidean norm and Cauchy-Schwarz (`NormProofs.v`), errors propagate with polynomials of the second kind (`RoundingProofs.v`), all loops for any kernel that computes rows one by one (`RoundingLoops.v`), scalar products and moments (`RoundingMoments.v`), CSR and ELLPACK kernels (`RoundingKernels.v`), complex from real operations and rounding to p digits (`RoundingReal.v`); `PropsRounding.v` |
| C110 | `Simd.v` (registers as lists of words, gather, complex arithmetic, kernels of one vector and of a batch, addresses) | lane-wise laws for real and complex registers (`SimdProofs.v`), simulation of the lane kernels of `KpmEll.v` (`SimdKernels.v`); `PropsSimd.v` |
| C111 | `Spectral.v` | peaks of `PropsSpectral.v` on the whole energy range (`Converge.v`), order, parts and existence of integrals (`RIntMore.v`), Chebyshev's inequality, uniform continuity; `PropsConverge.v` |
| C112 | `PlotSites.v` | argsort as any sorting permutation; circles as maps over the order of drawing; ranks in a strictly sorted list; `PropsPlotSites.v` |
| C113 | `ScalarType.v` (around `Hamiltonian.v`) | simulation of the complex builder by the real one, homomorphism of the builder under scaling (`ScalarTypeProofs.v`); counterexamples over complex rationals (`PropsScalarType.v`) |
| C114 | `ArrayRef.v` | typed memory with wrong-type reads as UB; injectivity of tags, membership in filtered combinations, address arithmetic of strides (`PropsArrayRef.v`) |
| C115 | `PlotRadius.v` | minimum of positive distances, stable sort by height, interval arithmetic, cycling through a prefix (`PropsPlotRadius.v`) |
| C116 | `CsrLoop.v` | three flat arrays represent a list of rows; double loop = fold over numbered cells; invariant of a stable insertion sort in place (`PropsCsrLoop.v`) |
| C117 | `VecCaster.v` | arithmetic modulo 2^64 of strides and addresses (`PropsVecCaster.v`) |
| C118 | `CallSig.v` | Python's binding of arguments as the specification; round trip of the text; fresh keys of an ordered dictionary; pieces of equal length (`PropsCallSig.v`) |
| C119 | `Deferred.v` | events of solvers, jobs and threads; one step changes only its own object; a flag per job for the interleavings (`PropsDeferred.v`) |
| C120 | `landau_level` of `graphene/utils.py` (`Landau.v`) | Dirac equation from the rates of the couplings (C85); raising the Gauss function for existence; lowering until below the ground state, where a bounded convex square is constant, for the absence of others (`LandauProofs.v`, `PropsLandau.v`) |
| C121 | `with_defaults`, `structure_plot_properties`, the calls of `Structure.plot`, `StructureMap.plot` and `plot_periodic_boundaries` (`PlotOptions.v`) | options as layers of partial functions, the first layer that has a name wins; exact list of calls against it (`PropsPlotOptions.v`) |
| C122 | `Eigenvalues.plot`, `plot_heatmap`, lines and numbers of `_decorate_plot` (`HeatMap.v`) | dots as a permutation of the states' own dots, for any sorting procedure; lines from the maximal runs of C58 (`PropsHeatMap.v`) |
| C123 | `SpatialMap.convolve`, `SpatialMap.clipped` (`SmoothMap.v`) | weighted averages as an equation, independent of the program's filter and division (`PropsSmoothMap.v`) |
| C124 | labels of cells in `Lattice.plot`, `align` (`LatticePlot.v`) | cells as relation to the terms, places by coordinates (`PropsLatticePlot.v`) |

## 3. Trusted base

* The Coq 8.16.1 kernel (and `coqchk`).
* `Print Assumptions` is run beside every property theorem. Section 5 lists every axiom it
  reports.
* The correspondence between the C++ text and the Gallina definitions, which is by inspection,
  guided by the file/line comments.
* The documented meaning of the libsimdpp functions and x86 intrinsics named in `Simd.v` (C110).
* numpy and scipy functions that Python code calls are modelled by what they return (for C87–C90:
  index arrays, `argmin` of masked arrays, `convolve`, row and column selection of CSR matrices,
  which may or may not drop stored zeros).

## 4. What is not modelled

Floating-point rounding (except C109; there not the vector instructions); Eigen internals (dense/sparse storage, `insert`, `setFromTriplets` are
modelled by their documented meaning); SIMD instructions below their documented meaning (C110); the C++ memory model below mutexes; plotting; Python code other than the parts named in section 2; the values of
conversions between float32 and float64 in modifier results; the contents and compression of files (which file is written and read is modelled, C93). Kernels,
scaling, spectral reconstruction and the Lanczos procedure are modelled over the real numbers
(`Spectral.v`, `Lanczos.v`); the MKL version of the tridiagonal solver is not. Random numbers are ideal: independent and equally
likely multiples of 1/M (`Random.v`, C95).

## 5. Axioms

C52-C55, C57-C66, C68-C75, C78, C85, C86, C90, C92, C94, C95, C97, C98, C100-C103, C105, C109, C111, C115, C120, C122, C123 and C124 use the real numbers of the standard library and with them its axioms
`ClassicalDedekindReals.sig_not_dec`, `ClassicalDedekindReals.sig_forall_dec`,
`FunctionalExtensionality.functional_extensionality_dep` and `Classical_Prop.classic`.
No other theorem depends on an axiom (`Print Assumptions` reports "Closed under the global context").
`coqchk` additionally lists `Coq.ssr.ssrunder.*`, which belong to the standard library files
loaded by `lia`/`ring` and are used by no theorem here.
