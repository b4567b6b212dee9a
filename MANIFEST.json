{
 "claims": [
  {
   "property": "C01",
   "status": "proved",
   "theorems": [
    "C01_bonds_distinct",
    "C01_duplicate_rejected",
    "C01_self_rejected",
    "C01_accepted_added"
   ],
   "note": "All call histories, including failing calls."
  },
  {
   "property": "C02",
   "status": "partial",
   "theorems": [
    "C02_site_registry_refuted",
    "C02_alias_of_alias_refuted",
    "C02_ids_dense",
    "C02_hopping_registry",
    "C02_site_registry_iff_partial",
    "C02_site_registry_content",
    "C02_alias_energy"
   ],
   "note": "The full claim is false of the code: a sublattice defined after an alias makes the site registry throw, and an alias of an alias has no entry. Proved: dense ids, hopping registry, exact condition for the site registry to exist and its content."
  },
  {
   "property": "C03",
   "status": "partial",
   "theorems": [
    "C03_rejected_call_refuted",
    "C03_rejected_call_partial",
    "C03_by_energy_partial"
   ],
   "note": "The full claim is false of the code: a hopping by energy with unknown sublattice names leaves an anonymous family behind. All other calls are atomic."
  },
  {
   "property": "C04",
   "status": "proved",
   "theorems": [
    "C04_unit_cell"
   ],
   "note": "All lattices reachable through the API, all hash-map iteration orders."
  },
  {
   "property": "C05",
   "status": "partial",
   "theorems": [
    "C05_one_to_one",
    "C05_all_sites",
    "C05_slices",
    "C05_sublattice_slice_refuted",
    "C05_sublattice_slice_partial",
    "C05_positions"
   ],
   "note": "Everything holds except that the iterator of a sublattice slice reports sublattice number 0 (refuted for other sublattices); array indices and cells of that iterator are right."
  },
  {
   "property": "C06",
   "status": "partial",
   "theorems": [
    "C06_core_refuted",
    "C06_greatest_partial",
    "C06_core_partial",
    "C06_order_independent"
   ],
   "note": "The unconditional claim is false of the code (sites with too few bonds from the start are never examined). Proved: exact characterisation as greatest set, the full claim when valid sites start with enough block neighbours, order independence, termination."
  },
  {
   "property": "C07",
   "status": "proved",
   "theorems": [
    "C07_populate_succeeds",
    "C07_numbering"
   ],
   "note": "All API lattices, blocks, masks and position arrays."
  },
  {
   "property": "C08",
   "status": "proved",
   "theorems": [
    "C08_bonds"
   ],
   "note": "All API lattices, blocks and masks."
  },
  {
   "property": "C09",
   "status": "partial",
   "theorems": [
    "C09_long_bonds_refuted",
    "C09_boundaries_partial",
    "C09_exact",
    "C09_lost"
   ],
   "note": "The unconditional claim is false of the code: bonds longer than one cell are lost when the period is longer than one cell. Proved for all lattices, periods and masks: every stored hopping is an image bond, stored once and in one direction, shifts are distinct; completeness for bonds that reach at most one cell (or period one) in each periodic direction. C09_exact says for every lattice exactly which image bonds are stored; C09_lost shows that the condition is sharp: with a whole period each longer hopping loses a bond."
  },
  {
   "property": "C10",
   "status": "partial",
   "theorems": [
    "C10_long_period_refuted",
    "C10_inside_partial"
   ],
   "note": "False when the period exceeds the block (negative cell index is read); proved whenever one period fits."
  },
  {
   "property": "C100",
   "status": "proved",
   "theorems": [
    "C100_ldos",
    "C100_dos",
    "C100_greens",
    "C100_reversed",
    "C100_opposite",
    "C100_bipartite",
    "C100_field_origin",
    "C100_field_reversed"
   ],
   "note": "With the spectral bounds given (the Lanczos estimate starts from a random vector) and real arithmetic. The field theorems are about the constant magnetic field of C70, for systems without boundaries and with at most one bond between two sites."
  },
  {
   "property": "C101",
   "status": "partial",
   "theorems": [
    "C101_refuted",
    "C101_units",
    "C101_partial"
   ],
   "note": "False as stated for a shift: a middle of the bounds within 1e-4 half widths of zero is taken as zero (Bounds.hpp:17-24), so the polynomial approximation is centred elsewhere (C101_refuted). Proved for every change of unit, and for shifts when neither middle is rounded. With given bounds; the Lanczos stopping test is relative to the eigenvalue and so depends on the zero too."
  },
  {
   "property": "C102",
   "status": "proved",
   "theorems": [
    "C102_operator",
    "C102_waves",
    "C102_energies",
    "C102_bands"
   ],
   "note": "Complex number type, no hopping modifiers (C43). C102_bands is the case of plane waves and no missing sites."
  },
  {
   "property": "C103",
   "status": "proved",
   "theorems": [
    "C103_folding",
    "C103_complete"
   ],
   "note": "Uses C102 and the roots of one; exact complex arithmetic, no modifiers. C103_complete: crystals without missing sites have the same sites. The restriction to short bonds is the one of C09."
  },
  {
   "property": "C104",
   "status": "partial",
   "theorems": [
    "C104_removed",
    "C104_diagonal",
    "C104_off",
    "C104_full",
    "C104_full_exact",
    "C104_conductivity",
    "C104_full_refuted",
    "C104_conductivity_refuted"
   ],
   "note": "The loops are run with counting kernels, so the work is that of the modelled loops. Refuted: the report denies using the whole system although it does when the number of slices is between half the number of moments and that plus the source offset (C104_full_refuted, exact condition in C104_full_exact); the conductivity runs four times the reported work (C104_conductivity). Timers, memory sizes and overflow of counters are not modelled."
  },
  {
   "property": "C105",
   "status": "proved",
   "theorems": [
    "C105_moments",
    "C105_ldos",
    "C105_greens",
    "C105_broadening",
    "C105_far"
   ],
   "note": "Both runs use the same energy bounds lo, hi (bounds found by Lanczos differ between systems). Exact arithmetic. The number of moments 2r+2 cannot be raised (C105_sharp)."
  },
  {
   "property": "C106",
   "status": "partial",
   "theorems": [
    "C106_line",
    "C106_fits",
    "C106_log",
    "C106_terminal",
    "C106_restored",
    "C106_raises",
    "C106_stdout",
    "C106_empty_refuted",
    "C106_refuted",
    "C106_narrow_refuted",
    "C106_partial_line_refuted",
    "C106_twice_refuted"
   ],
   "note": "False without the conditions: a bar of size 0 raises in start and the streams are never given back (C106_empty_refuted, C106_refuted); a line longer than the width that grows overwrites the beginning of the log (C106_narrow_refuted); text without a line break is wiped from the terminal (C106_partial_line_refuted); a bar moved before it is entered starts twice and the terminal is lost (C106_twice_refuted). The formats of percentage, elapsed and eta are left open; the terminal of the specification does not wrap lines."
  },
  {
   "property": "C107",
   "status": "proved",
   "theorems": [
    "C107_order",
    "C107_asked"
   ],
   "note": "On the state machine of C20: the builders are arbitrary functions of the configuration, user functions are deterministic. Within one part the order does matter (C107_within)."
  },
  {
   "property": "C108",
   "status": "partial",
   "theorems": [
    "C108_cpp_partial",
    "C108_cpp_order",
    "C108_python",
    "C108_python_order",
    "C108_same_exact",
    "C108_suffix_partial",
    "C108_refuted",
    "C108_same_refuted",
    "C108_suffix_refuted"
   ],
   "note": "Correct rounding everywhere (C108_claim), the same text from both parts (C108_same_claim) and three digits for every size (C108_suffix_claim) are false: 21.9 ms is printed as 21ms by the C++ part and 22ms by the Python part, and from 999.5 G on numbers are in exponent notation. What holds instead is exact (C108_same_exact, C108_suffix_partial). Exact arithmetic: the conversion to float or double before printing is not modelled."
  },
  {
   "property": "C109",
   "status": "proved",
   "theorems": [
    "C109_units",
    "C109_diagonal",
    "C109_prepared",
    "C109_complex",
    "C109_digits",
    "C109_growth"
   ],
   "note": "Kernels of kernel_polynomial.hpp with every operation replaced by an arbitrary rounded one; all four loops (with and without size optimisation and interleaving), rows stored compressed or as ELLPACK (kernels without vector instructions). C109_prepared adds the preparation of the matrix (scaling without rounding, reordering, slices). Underflow, overflow and NaN are excluded by the contract (relative errors; unlimited exponent range). C109_growth gives an arithmetic within the contract whose errors are at least u n (n - 1) / 2."
  },
  {
   "property": "C11",
   "status": "proved",
   "theorems": [
    "C11_block_covers_cells",
    "C11_block_exists",
    "C11_block_positions"
   ],
   "note": "All vertex lists; exact rational coordinates, C++ truncation and int overflow modelled."
  },
  {
   "property": "C110",
   "status": "proved",
   "theorems": [
    "C110_gather",
    "C110_arithmetic",
    "C110_memory",
    "C110_vector",
    "C110_batch",
    "C110_loops",
    "C110_aligned",
    "C110_batch_aligned"
   ],
   "note": "Registers and memory are lists of words; the operations of libsimdpp and the intrinsics are taken from their documentation; arithmetic is exact (a fused multiply-add is a product and a sum). The case without stored elements is the failure of C28."
  },
  {
   "property": "C111",
   "status": "proved",
   "theorems": [
    "C111_average",
    "C111_limit",
    "C111_window",
    "C111_count",
    "C111_dos"
   ],
   "note": "Exact arithmetic and given energy bounds; energies are those strictly inside the scaled range, where the formula has no division by zero. Integrals are by antiderivatives with limits at the ends (RInt.v), their existence is part of the statements."
  },
  {
   "property": "C112",
   "status": "partial",
   "theorems": [
    "C112_flat",
    "C112_space_exact",
    "C112_space_partial",
    "C112_space_refuted",
    "C112_colour_signed",
    "C112_colour_negative",
    "C112_colour_rank",
    "C112_colour_partial",
    "C112_colour_refuted",
    "C112_rotate",
    "C112_radii_partial",
    "C112_radii_constant",
    "C112_radii_refuted"
   ],
   "note": "The full claim is refuted three times: radii per site on 3D axes, colours of whole numbers, and radii from data which differ by no more than 1e-8. Flat axes, common radius, data by rank, axes and radii from data are proved. Matplotlib's collections, BoundaryNorm and ListedColormap are modelled from their documentation."
  },
  {
   "property": "C113",
   "status": "partial",
   "theorems": [
    "C113_type_partial",
    "C113_type_refuted",
    "C113_unit_partial",
    "C113_unit_refuted",
    "C113_vectors_partial",
    "C113_vectors_refuted"
   ],
   "note": "The full claims are false because of the limits of isZero (witnesses on complex rationals with the limit 1e-12 and on vectors with the limit 1e-5). Exact arithmetic; a modifier is assumed to compute the same numbers on real and complex arrays."
  },
  {
   "property": "C114",
   "status": "partial",
   "theorems": [
    "C114_solver",
    "C114_strategy",
    "C114_match",
    "C114_match2",
    "C114_matrix_partial",
    "C114_matrix_refuted",
    "C114_numpy",
    "C114_vector_partial",
    "C114_vector_refuted"
   ],
   "note": "Two claims are false (witnesses): matching ignores the storage order, and the overload for a mutable std::vector makes a three-dimensional array. Everything else holds in full."
  },
  {
   "property": "C115",
   "status": "partial",
   "theorems": [
    "C115_cell",
    "C115_share",
    "C115_overlap_partial",
    "C115_overlap_refuted",
    "C115_visible",
    "C115_length",
    "C115_margin",
    "C115_ratio_partial",
    "C115_ratio_refuted",
    "C115_direction_partial",
    "C115_direction_refuted",
    "C115_structure",
    "C115_palette_total",
    "C115_palette_partial",
    "C115_palette_refuted"
   ],
   "note": "Four claims are false (witnesses): overlap across cells, inverted axes are cut, inverted axes are turned around, the start of a palette. Guarded versions are proved. Exact real numbers."
  },
  {
   "property": "C116",
   "status": "proved",
   "theorems": [
    "C116_for_each",
    "C116_row",
    "C116_buffered",
    "C116_max",
    "C116_scipy",
    "C116_fill",
    "C116_fill_full"
   ],
   "note": "Indices do not overflow int. Rows are filled in increasing order; an example shows that a row opened again after a later one is not reopened."
  },
  {
   "property": "C117",
   "status": "partial",
   "theorems": [
    "C117_load_partial",
    "C117_load_refuted",
    "C117_long_refuted",
    "C117_long_ub",
    "C117_roundtrip"
   ],
   "note": "The claim is false for strides which are not whole elements and for lengths from 2^31 (witnesses). Address arithmetic wraps around at 64 bits. Conversion of element types by NumPy is not modelled."
  },
  {
   "property": "C118",
   "status": "partial",
   "theorems": [
    "C118_repr_partial",
    "C118_repr_refuted",
    "C118_order",
    "C118_named",
    "C118_filename_text",
    "C118_filename_safe",
    "C118_filename_partial",
    "C118_filename_refuted",
    "C118_filename_args"
   ],
   "note": "False with positional-only parameters and for the collision of file names (witnesses). The signature is taken when the function begins; examples show rebound and deleted variables. Finding the frame is not modelled."
  },
  {
   "property": "C119",
   "status": "partial",
   "theorems": [
    "C119_once",
    "C119_value",
    "C119_retry",
    "C119_busy",
    "C119_ends",
    "C119_created_partial",
    "C119_shared_refuted",
    "C119_race_partial",
    "C119_race_refuted"
   ],
   "note": "False when a solver is shared by jobs (witnesses). The density is a function of the models of solver and core and the arguments (C51); a race for the core is a distinct outcome."
  },
  {
   "property": "C12",
   "status": "proved",
   "theorems": [
    "C12_compressed_table_is_plain_list"
   ],
   "note": "All histories of additions and filters; masks must have one flag per site."
  },
  {
   "property": "C120",
   "status": "proved",
   "theorems": [
    "C120",
    "C120_domain",
    "C120_scaling"
   ],
   "note": "Real arithmetic. The Dirac equation is made from the first-order rates of the lattice couplings (as in C85), for the honeycomb of bond length a_cc; terms of higher order in the momentum are outside the formula. Waves are exp(ikx) times real functions of y."
  },
  {
   "property": "C121",
   "status": "partial",
   "theorems": [
    "C121_structure",
    "C121_map",
    "C121_partial",
    "C121_refuted",
    "C121_offset_refuted",
    "C121_again"
   ],
   "note": "C121_structure and C121_map give the options of every call exactly, and when there is an error. The claim that every option of the user arrives is proved for Structure.plot; for StructureMap.plot it is refuted, since alpha is overwritten with 0.5 in the periodic copies, and proved for all other options. C121_offset_refuted: offset is accepted for a finite system but is an error with periodic copies. The checks of the arguments inside plot_sites and plot_hoppings (a missing radius, names that matplotlib does not know) are not modelled."
  },
  {
   "property": "C122",
   "status": "partial",
   "theorems": [
    "C122_partial",
    "C122_sizes",
    "C122_plain",
    "C122_lines",
    "C122_numbers",
    "C122_refuted",
    "C122_size_refuted"
   ],
   "note": "Real arithmetic. C122_partial: for options that are the same for all dots. Refuted for arrays of sizes or colours given by the user: plot_heatmap reorders the dots but not the arrays (C122_refuted). The documented limits of the sizes are refuted too (C122_size_refuted): the largest dot has the sum of both numbers, as C122_sizes says. The probabilities are not negative; other options of the dots and the axes are not modelled."
  },
  {
   "property": "C123",
   "status": "partial",
   "theorems": [
    "C123_rings",
    "C123_between",
    "C123_partial",
    "C123_refuted",
    "C123_integers_refuted",
    "C123_no_width",
    "C123_lengths",
    "C123_clipped"
   ],
   "note": "Real arithmetic. What convolve computes is the average over a ring around the origin (C123_rings, with the bounds of C123_between); this is the average over the surroundings for sites on a ray from the origin (C123_partial), and refuted in general (C123_refuted): opposite sites are mixed at any distance. For integers equal values do not stay (C123_integers_refuted), since sums and quotients are cut off. Without a positive width nothing is a number (C123_no_width)."
  },
  {
   "property": "C124",
   "status": "partial",
   "theorems": [
    "C124_partial",
    "C124_all",
    "C124_distinct",
    "C124_away",
    "C124_refuted"
   ],
   "note": "Real arithmetic. Proved for one and two dimensions (C124_partial). Refuted in three (C124_refuted): cells straight above or below are taken for the home cell, since only the first two indices are compared; C124_all has the exact set. Colours, fonts and the arrows of the lattice vectors are not modelled."
  },
  {
   "property": "C13",
   "status": "partial",
   "theorems": [
    "C13_remove_sites_refuted",
    "C13_index_range_refuted",
    "C13_remove_sites_partial",
    "C13_remove_trailing_sites_partial"
   ],
   "note": "The full claim is false of the code: HoppingBlocks::filter does not renumber indices. Proved: positions, sublattices and which hoppings are kept for every mask; the full claim when no removed site precedes an end of a surviving hopping."
  },
  {
   "property": "C14",
   "status": "partial",
   "theorems": [
    "C14_append_exact_partial",
    "C14_append_rejects_unequal",
    "C14_direction_refuted",
    "C14_direction_partial"
   ],
   "note": "Stored hoppings are exactly the requested ones, unequal lists rejected. The requested direction is not kept: a request (a,b) with a > b is stored as (b,a) with the same energy, so the element from a to b is the conjugate transpose of the generator's energy (C14_direction_refuted, complex energy). C14_direction_partial gives the exact element for both orders, assuming the two sites were not bonded before."
  },
  {
   "property": "C15",
   "status": "proved",
   "theorems": [
    "C15_save_restore",
    "C15_counts",
    "C15_tocsr"
   ],
   "note": "tocsr additionally needs distinct (row, column) pairs, otherwise Eigen's insert is undefined."
  },
  {
   "property": "C16",
   "status": "partial",
   "theorems": [
    "C16_ham_indices_partition",
    "C16_ham_indices_positions",
    "C16_builder_indices_partial",
    "C16_builder_indices_refuted"
   ],
   "note": "Partition and positions proved for every table; agreement with the builder needs a table sorted by orbital count and is refuted otherwise (site generators can append a smaller-orbital sublattice)."
  },
  {
   "property": "C17",
   "status": "partial",
   "theorems": [
    "C17_registered_energy_refuted",
    "C17_hermitian_partial",
    "C17_lattice_models"
   ],
   "note": "Hermitian for every model made with the lattice API and for every system with Hermitian stored onsite energies, all phases, all hopping modifiers. Refuted for energies accepted by register_family (site generators): an upper triangular matrix is stored without its conjugate half."
  },
  {
   "property": "C18",
   "status": "partial",
   "theorems": [
    "C18_misfit_refuted",
    "C18_elements_partial",
    "C18_lattice_models",
    "C18_paths_agree"
   ],
   "note": "Every element equals the tight-binding element for all systems whose matrices fit their sites (always true for lattice API models, C18_lattice_models). Refuted without that condition: hopping generators are not checked and a scalar hopping between multi-orbital sites is written to wrong rows."
  },
  {
   "property": "C19",
   "status": "partial",
   "theorems": [
    "C19_batching",
    "C19_slices",
    "C19_slice_contents",
    "C19_step_zero_refuted"
   ],
   "note": "Independent of the buffer size; each hopping once and in order with its positions and energy entries. Termination refuted when one energy matrix is larger than the buffer (step 0)."
  },
  {
   "property": "C20",
   "status": "partial",
   "theorems": [
    "C20_claim_refuted",
    "C20_removed_modifier_refuted",
    "C20_removed_ham_modifier_refuted",
    "C20_rejected_call_refuted",
    "C20_failed_lead_refuted",
    "C20_sticky_type_refuted",
    "C20_order_free_partial",
    "C20_order_free_values_partial"
   ],
   "note": "The unconditional claim is false of the code in five ways: clear_structure_modifiers and clear_hamiltonian_modifiers keep the caches, rejected calls change the configuration without clearing them, a failed lead leaves a partial list, complex_override is never reset. Proved for all other call and query sequences, for arbitrary deterministic builders."
  },
  {
   "property": "C21",
   "status": "partial",
   "theorems": [
    "C21_claim_refuted",
    "C21_generator_refuted",
    "C21_primitive_refuted",
    "C21_shape_refuted",
    "C21_attach_lead",
    "C21_rejected_keeps_partial",
    "C21_built_model"
   ],
   "note": "False for add(Primitive), add(Shape) and both generators: the setting is stored before it is checked. Proved: attach_lead is all or nothing; no rejected call touches caches, registries, offset, symmetry, wave vector, leads or Hamiltonian modifiers; a fully built model keeps answering as before."
  },
  {
   "property": "C22",
   "status": "proved",
   "theorems": [
    "C22_no_deadlock",
    "C22_terminates",
    "C22_results",
    "C22_stages",
    "C22_zero_threads_hang"
   ],
   "note": "All job counts, thread counts >= 1, queue sizes and schedules including spurious wake-ups. Callbacks are pure functions; exceptions in callbacks (std::terminate) not modelled. C22_zero_threads_hang: with zero threads the call never returns."
  },
  {
   "property": "C23",
   "status": "proved",
   "theorems": [
    "C23_queue",
    "C23_told_finished",
    "C23_no_lost_wakeup"
   ],
   "note": "For arbitrary programs over any number of queues, producers and consumers, every schedule. 'Producers done' means every producer that had registered has left."
  },
  {
   "property": "C24",
   "status": "proved",
   "theorems": [
    "C24_no_deadlock",
    "C24_terminates",
    "C24_at_most_once",
    "C24_join",
    "C24_no_workers_refuted"
   ],
   "note": "All task lists, worker counts >= 1 and schedules. C24_no_workers_refuted: with zero workers join returns without running anything."
  },
  {
   "property": "C25",
   "status": "proved",
   "theorems": [
    "C25_reordering",
    "C25_unreachable"
   ],
   "note": "All matrices with symmetric pattern, all source and destination lists. C25_unreachable: a state that the first source cannot reach makes the construction read outside its arrays."
  },
  {
   "property": "C26",
   "status": "proved",
   "theorems": [
    "C26_moments",
    "C26_greens",
    "C26_ldos"
   ],
   "note": "Size optimisation, interleaving and the three matrix kernels (CSR, generic and vectorised ELLPACK) give equal results; reordering needs a connected pattern (C25), the vectorised kernel a nonzero matrix (C28)."
  },
  {
   "property": "C27",
   "status": "proved",
   "theorems": [
    "C27_moments",
    "C27_ldos",
    "C27_dos",
    "C27_conductivity"
   ],
   "note": "All matrices, vectors, operators, moment counts and speed options; Hermitian matrix required only for the doubled-rate collector."
  },
  {
   "property": "C28",
   "status": "partial",
   "theorems": [
    "C28_storage",
    "C28_kernels_partial",
    "C28_other_rows",
    "C28_refuted"
   ],
   "note": "Proved for every matrix with the generic build and for every matrix with a stored entry with the vectorised build, all alignments and vector lengths. Refuted for a matrix without stored entries: the vectorised diagonal kernel reads column -1."
  },
  {
   "property": "C29",
   "status": "proved",
   "theorems": [
    "C29_accumulate",
    "C29_concatenate",
    "C29_progress",
    "C29_dos",
    "C29_ldos"
   ],
   "note": "All schedules, batch sizes, thread counts and vector counts. A mean over one vector is not divided, as in the code."
  },
  {
   "property": "C30",
   "status": "partial",
   "theorems": [
    "C30_refuted",
    "C30_rejected_partial",
    "C30_transposed",
    "C30_element_partial"
   ],
   "note": "Refuted: row or column equal to the size is accepted and read; for complex Hermitian matrices the element (col, row) is returned. Proved: negative and larger indices are rejected, in-range requests give the element (col, row), which is (row, col) for real symmetric matrices."
  },
  {
   "property": "C31",
   "status": "partial",
   "theorems": [
    "C31_refuted",
    "C31_complete",
    "C31_partial"
   ],
   "note": "Refuted: one valid and one invalid letter passes the check and a null pointer is followed. C31_complete gives the behaviour for every string."
  },
  {
   "property": "C32",
   "status": "proved",
   "theorems": [
    "C32_rounding",
    "C32_count"
   ],
   "note": "All positive counts, algorithms and formats."
  },
  {
   "property": "C33",
   "status": "partial",
   "theorems": [
    "C33_emptied_refuted",
    "C33_nearest_partial"
   ],
   "note": "Refuted: a sublattice emptied by a state modifier after a generator keeps an empty block; the query returns a site of another sublattice or reads outside the positions (C33_emptied_last). Proved for every built model whenever a site of the sublattice exists, and for unknown names."
  },
  {
   "property": "C34",
   "status": "partial",
   "theorems": [
    "C34_even_odd_refuted",
    "C34_even_odd_partial",
    "C34_rotate",
    "C34_reverse",
    "C34_rectangle"
   ],
   "note": "Even-odd rule proved for all polygons without sides whose ends are approximately but not exactly at the same height (refuted for those: the code skips them). Rotation and reversal invariance for all polygons."
  },
  {
   "property": "C35",
   "status": "partial",
   "theorems": [
    "C35_complex_refuted",
    "C35_leads_partial",
    "C35_lead_is_bulk_partial",
    "C35_real_scalar"
   ],
   "note": "Refuted for complex hoppings: make_h1 stores bonds that point against the lead with the energy of the forward direction, so h1 is not conjugated. Proved: structure, h0 and h1 are exactly the bulk Hamiltonian whenever every term pointing against the lead across the cut has a self-adjoint energy (always true for real one-orbital models and for leads along the positive term directions), for any number of leads of which the later ones keep clear of this one."
  },
  {
   "property": "C36",
   "status": "partial",
   "theorems": [
    "C36_far_sublattice_refuted",
    "C36_sites_partial",
    "C36_polygon_partial",
    "C36_freeform_partial"
   ],
   "note": "False for sites displaced from their lattice point by more than one lattice vector (sublattice position plus lattice offset); proved for all others, for polygons and freeform shapes."
  },
  {
   "property": "C37",
   "status": "partial",
   "theorems": [
    "C37_end_point_refuted",
    "C37_line_partial"
   ],
   "note": "Sites exactly at an end point are dropped; exact characterisation proved."
  },
  {
   "property": "C38",
   "status": "proved",
   "theorems": [
    "C38_primitive"
   ],
   "note": "All extents."
  },
  {
   "property": "C39",
   "status": "partial",
   "theorems": [
    "C39_shape_refuted",
    "C39_last_setting_partial"
   ],
   "note": "False for shapes: the lattice offset accumulates over add(Shape) calls, so adding the same shape twice moves the lattice twice. Proved for primitive size, symmetry, wave vector, and shapes without lattice offset."
  },
  {
   "property": "C40",
   "status": "proved",
   "theorems": [
    "C40_attachment_area",
    "C40_direction"
   ],
   "note": "Success condition and result of create_attachment_area, for every shape that is a test on positions and whose box overlaps the block on the lead's axis."
  },
  {
   "property": "C41",
   "status": "partial",
   "theorems": [
    "C41_shifted_box_refuted",
    "C41_memory_safe_partial"
   ],
   "note": "Refuted: a lead whose box misses the block on the lead's own axis makes Junction read positions outside the block. Proved when the boxes overlap."
  },
  {
   "property": "C42",
   "status": "partial",
   "theorems": [
    "C42_two_leads_refuted",
    "C42_contacts_partial"
   ],
   "note": "Refuted for two leads that share a row: the second one moves the start of the first, which then gets the contact index -1. Proved for every lead of which the later leads keep clear: they run beside no common cell or come from the opposite side; the last lead needs no condition."
  },
  {
   "property": "C43",
   "status": "proved",
   "theorems": [
    "C43_images",
    "C43_bloch",
    "C43_one_cell"
   ],
   "note": "All lattices made through the API. Condition as in the statement: bonds reach at most one cell or the period is one cell (C09_long_bonds_refuted shows what happens otherwise). Without hopping modifiers."
  },
  {
   "property": "C44",
   "status": "partial",
   "theorems": [
    "C44_alias_refuted",
    "C44_foundation_partial",
    "C44_system_partial",
    "C44_names"
   ],
   "note": "Refuted: sites of an alias sublattice have the alias name before the first generator and the name of the original sublattice afterwards. Proved: site-wise effect on foundation and system, and which name each site has in the system. Callbacks that do not treat sites one by one are not covered."
  },
  {
   "property": "C45",
   "status": "proved",
   "theorems": [
    "C45_build"
   ],
   "note": "All lattices made through the API; structure modifiers that treat sites one by one and do not bring back removed sites; bond range condition as in C43."
  },
  {
   "property": "C46",
   "status": "partial",
   "theorems": [
    "C46_fewer_orbitals_refuted",
    "C46_start_partial",
    "C46_sites_partial",
    "C46_bonds_partial"
   ],
   "note": "Refuted: a generated site with fewer orbitals than earlier sites breaks the orbital order of the site table and its hoppings are written to wrong elements. Proved for generated sites with at least as many orbitals as all earlier ones and hopping energies that fit; C46_start_partial connects the generators to the model without them."
  },
  {
   "property": "C47",
   "status": "partial",
   "theorems": [
    "C47_removed_refuted",
    "C47_contacts_partial"
   ],
   "note": "Refuted: lead indices are taken before modifiers that follow a generator, so removing sites there leaves stale indices. Proved for every lead of which the later leads keep clear, when only generators follow the first generator and every cell of the block lies within the period."
  },
  {
   "property": "C48",
   "status": "proved",
   "theorems": [
    "C48_lattice_calls",
    "C48_model_calls",
    "C48_registered",
    "C48_names",
    "C48_lookup",
    "C48_single_orbital"
   ],
   "note": "Lattice calls on every lattice reached by API calls; model calls in every state."
  },
  {
   "property": "C49",
   "status": "partial",
   "theorems": [
    "C49_refuted",
    "C49_refuted_guess_one",
    "C49_refuted_recycle",
    "C49_refuted_none",
    "C49_solve_partial"
   ],
   "note": "Refuted: guess 1 never grows (1*1.7 truncates to 1) and loops forever; recycle_subspace with a Hamiltonian of another size overruns the eigenvector buffer or keeps the wrong shape; an interval without eigenvalues takes the maximum of an empty array. Proved for guesses other than 0 and 1, at least one eigenvalue, sizes from 2, and one size when recycling. MKL is a universally quantified function with a contract; the eigenvalues themselves are not modelled."
  },
  {
   "property": "C50",
   "status": "partial",
   "theorems": [
    "C50_refuted",
    "C50_refuted_wave_vector",
    "C50_refuted_edit",
    "C50_refuted_kpm",
    "C50_refuted_failed_model",
    "C50_cpp_partial",
    "C50_python_partial",
    "C50_kpm_partial"
   ],
   "note": "Refuted: set_wave_vector of a FEAST solver does not reach the strategy (all bands are those of the first wave vector); changes of the model in place are not seen; a model that cannot be built is kept although set_model raised. Proved on top of the class Model for histories that end with a whole model (FEAST, KPM) or with dropped results (LAPACK, ARPACK, including set_wave_vector)."
  },
  {
   "property": "C51",
   "status": "partial",
   "theorems": [
    "C51_refuted",
    "C51_history_partial",
    "C51_moments_partial",
    "C51_greens_partial",
    "C51_ldos_partial"
   ],
   "note": "Refuted for an empty index list (spatial LDOS of a shape without sites): a new object reads a matrix that was never filled. Proved for every other index list; Lanczos and the scaling factors are arbitrary functions."
  },
  {
   "property": "C52",
   "status": "proved",
   "theorems": [
    "C52_ldos",
    "C52_dos",
    "C52_dirichlet_refuted"
   ],
   "note": "Real arithmetic. The Dirichlet kernel is outside the claim and shown to give negative values."
  },
  {
   "property": "C53",
   "status": "proved",
   "theorems": [
    "C53_ldos",
    "C53_dos",
    "C53_weights",
    "C53_states",
    "C53_all"
   ],
   "note": "C53_ldos and C53_dos hold for any complete set of states; C53_states shows that every Hermitian matrix has one, C53_all combines the two. Integrals are taken by antiderivatives over the open interval; integral_unique shows that the value is unique."
  },
  {
   "property": "C54",
   "status": "proved",
   "theorems": [
    "C54",
    "C54_lorentz"
   ],
   "note": "Real arithmetic."
  },
  {
   "property": "C55",
   "status": "partial",
   "theorems": [
    "C55_partial",
    "C55_refuted"
   ],
   "note": "False as stated (C55_refuted). C55_partial gives the exact value: the trapezoid sum times (n-1)/n."
  },
  {
   "property": "C56",
   "status": "proved",
   "theorems": [
    "C56",
    "C56_lattice"
   ],
   "note": "Systems without boundaries, as the code counts them; the row-wise reserve of the fast path (Lattice::max_hoppings) only affects speed: its value is proved to be the largest count over the sublattices of the lattice (C56_lattice), not that no row of a system exceeds it."
  },
  {
   "property": "C57",
   "status": "proved",
   "theorems": [
    "C57",
    "C57_probability"
   ],
   "note": "Real arithmetic; every sublattice has at least one orbital."
  },
  {
   "property": "C58",
   "status": "proved",
   "theorems": [
    "C58"
   ],
   "note": "Members of one group may differ by more than the tolerance (C58_chain)."
  },
  {
   "property": "C59",
   "status": "partial",
   "theorems": [
    "C59_partial",
    "C59_refuted"
   ],
   "note": "False for multi-orbital models (C59_refuted). C59_partial: one orbital per site; basis independence and preserved total."
  },
  {
   "property": "C60",
   "status": "partial",
   "theorems": [
    "C60_partial",
    "C60_refuted",
    "C60_shape_refuted"
   ],
   "note": "Refuted for segments shorter than the step and for the shape check; the rest proved. Exact real arithmetic."
  },
  {
   "property": "C61",
   "status": "partial",
   "theorems": [
    "C61_partial",
    "C61_refuted"
   ],
   "note": "C61_claim is the full statement; C61_refuted refutes it for every real start vector of three numbers, C61_partial proves what holds. Exact arithmetic except for the deflation threshold."
  },
  {
   "property": "C62",
   "status": "proved",
   "theorems": [
    "C62",
    "C62_bound",
    "C62_extremes"
   ],
   "note": "Exact arithmetic except for the deflation threshold eps."
  },
  {
   "property": "C63",
   "status": "proved",
   "theorems": [
    "C63"
   ],
   "note": "Lengths are exact real numbers."
  },
  {
   "property": "C64",
   "status": "proved",
   "theorems": [
    "C64"
   ],
   "note": "Exact complex arithmetic."
  },
  {
   "property": "C65",
   "status": "proved",
   "theorems": [
    "C65_alt",
    "C65_4atom"
   ],
   "note": ""
  },
  {
   "property": "C66",
   "status": "partial",
   "theorems": [
    "C66_partial",
    "C66_refuted",
    "C66_turn",
    "C66_turn_refuted"
   ],
   "note": "The claim is false with gamma4: the terms between B1 and B2 are missing (C66_refuted), and the half turn is no symmetry then (C66_turn_refuted). It holds for all other pairs and for gamma4 = False (C66_partial, C66_turn)."
  },
  {
   "property": "C67",
   "status": "proved",
   "theorems": [
    "C67"
   ],
   "note": "For calls that do not use names of the form the library makes up for unnamed energies."
  },
  {
   "property": "C68",
   "status": "proved",
   "theorems": [
    "C68",
    "C68_rotation"
   ],
   "note": ""
  },
  {
   "property": "C69",
   "status": "partial",
   "theorems": [
    "C69",
    "C69_bonds_partial",
    "C69_bonds_refuted"
   ],
   "note": "The symmetries are proved in full (C69). The statement about bond lengths holds for t1 (C69_bonds_partial) and is false for t2 (C69_bonds_refuted): the height h = a sin(phi - pi/2) is below 0.111 nm, so these bonds are shorter than 0.16 nm; the cosine is meant."
  },
  {
   "property": "C70",
   "status": "proved",
   "theorems": [
    "C70",
    "C70_phases",
    "C70_flux"
   ],
   "note": "Finite systems (no periodic boundaries). With a boundary along y the phases of the vector potential (By, 0) are not periodic; that the program applies the modifier to the shifted positions there is part of C18."
  },
  {
   "property": "C71",
   "status": "proved",
   "theorems": [
    "C71",
    "C71_gap"
   ],
   "note": "Real arithmetic; eigenpairs as such (that the solver finds them is not claimed)."
  },
  {
   "property": "C72",
   "status": "proved",
   "theorems": [
    "C72"
   ],
   "note": "Real arithmetic. The Gaussian integral is proved from the Riemann integral of the standard library."
  },
  {
   "property": "C73",
   "status": "partial",
   "theorems": [
    "C73_partial",
    "C73_dual",
    "C73_periodic",
    "C73_systems",
    "C73_reversal",
    "C73_refuted"
   ],
   "note": "False for lattices whose vectors are dependent in their first ndim coordinates, such as a chain along y: reciprocal_vectors raises LinAlgError (C73_refuted). Otherwise proved. The inverse is exact; rounding is not modelled."
  },
  {
   "property": "C74",
   "status": "partial",
   "theorems": [
    "C74_partial",
    "C74_condition",
    "C74_refuted",
    "C74_exact",
    "C74_exact_vectors"
   ],
   "note": "False for skewed vectors: Lattice(a1=[1, 0], a2=[3, 1]) gets a zone that is too large (C74_refuted). Proved when |b1.b2| is at most |b1|^2 and |b2|^2, which can be checked on a1 and a2; this condition is exact (C74_exact, C74_exact_vectors). scipy's Voronoi diagram is represented by its definition, the polygon by the set of its points."
  },
  {
   "property": "C75",
   "status": "partial",
   "theorems": [
    "C75_partial",
    "C75_symmetry",
    "C75_waves",
    "C75_phases",
    "C75_long_hops_refuted"
   ],
   "note": "False when a hopping spans two or more lead cells: it is silently left out (C75_long_hops_refuted). Proved when all hoppings reach at most the next lead cell and, as for C35, have self-adjoint energies."
  },
  {
   "property": "C76",
   "status": "partial",
   "theorems": [
    "C76_line_refuted",
    "C76_far_polygon_refuted",
    "C76_box_refuted",
    "C76_scalar_centre_refuted",
    "C76_lattice_refuted",
    "C76_points_partial",
    "C76_box_partial",
    "C76_line",
    "C76_back"
   ],
   "note": "The full claims (C76_claim_points, C76_claim_box, C76_claim_lattice) are refuted by witnesses. Rational coordinates."
  },
  {
   "property": "C77",
   "status": "partial",
   "theorems": [
    "C77_points",
    "C77_depth",
    "C77_depth_refuted",
    "C77_partial",
    "C77_offset"
   ],
   "note": "C77_claim is refuted in depth; the convex hull of scipy enters through a contract."
  },
  {
   "property": "C78",
   "status": "partial",
   "theorems": [
    "C78_zero_height_refuted",
    "C78_rectangle_partial",
    "C78_square",
    "C78_circle",
    "C78_polygon",
    "C78_regular",
    "C78_hexagon"
   ],
   "note": "A height of zero is refuted; heights up to 2^-126 are excluded by the tolerance of the polygon test. Rational coordinates for rectangle and circle, real ones for the polygons."
  },
  {
   "property": "C79",
   "status": "partial",
   "theorems": [
    "C79_partial",
    "C79_1d_partial",
    "C79_wrong_size",
    "C79_in_place",
    "C79_argument",
    "C79_argument_1d",
    "C79_view_ignored",
    "C79_reshaped_scrambled",
    "C79_refuted",
    "C79_refuted_transposed",
    "C79_refuted_1d"
   ],
   "note": "The claim is false: C ordered results that do not own their memory (reshape) are scrambled, views of the argument such as its transpose are ignored, a reversed view makes C++ read past the array (C79_refuted*). Proved for new C ordered arrays, C ordered arrays of another precision, and arrays in the order of the argument; for single orbitals for contiguous arrays and arrays of another precision. Missing: nothing else holds in general."
  },
  {
   "property": "C80",
   "status": "partial",
   "theorems": [
    "C80_partial",
    "C80_refuted",
    "C80_swap"
   ],
   "note": "The claim is false: `return y, x, z` gives (y, y, z) (C80_refuted, C80_swap). Proved when no result is the view of an earlier coordinate."
  },
  {
   "property": "C81",
   "status": "partial",
   "theorems": [
    "C81_partial",
    "C81_names",
    "C81_whole_names",
    "C81_not_equal",
    "C81_modifier",
    "C81_refuted"
   ],
   "note": "The claim is false for lattices with both A and A|2 (C81_refuted). Proved for all strings that are not both a whole name and the first part of another one."
  },
  {
   "property": "C82",
   "status": "proved",
   "theorems": [
    "C82",
    "C82_jobs",
    "C82_places_differ",
    "C82_threads",
    "C82_saved_rows",
    "C82_empty_variable",
    "C82_binding",
    "C82_binding_throws",
    "C82_unknown_ignored",
    "C82_sweep",
    "C82_columns",
    "C82_refuted_arguments",
    "C82_refuted_sweep"
   ],
   "note": "The stronger readings are false and refuted: swept parameters anywhere in the signature (C82_refuted_arguments), `sweep` with more than one variable (C82_refuted_sweep); a misspelled variable is ignored (C82_unknown_ignored)."
  },
  {
   "property": "C83",
   "status": "partial",
   "theorems": [
    "C83_partial",
    "C83_uniform_partial",
    "C83_exact",
    "C83_throws",
    "C83_refuted",
    "C83_block_partial",
    "C83_block_exact",
    "C83_block_refuted"
   ],
   "note": "The claim about the counts is false: with A (two orbitals) before B (one) the counts are exchanged (C83_refuted), and a sublattice without sites can make the call raise (C83_throws). C83_exact says exactly when it holds; proved when ids and entries are in the same order. hamiltonian(i, j) returns one element instead of the block of two sites: proved for one orbital per site, with the exact condition, refuted else."
  },
  {
   "property": "C84",
   "status": "proved",
   "theorems": [
    "C84",
    "C84_nested",
    "C84_accepted",
    "C84_none"
   ],
   "note": "Strings are not in the argument type: their elements are strings again, so Python recurses until its limit."
  },
  {
   "property": "C85",
   "status": "proved",
   "theorems": [
    "C85",
    "C85_elements",
    "C85_factor",
    "C85_symmetry"
   ],
   "note": "Field statement for the ideal honeycomb of bond length a_cc; the lattice constant 0.24595 of the repository differs from sqrt 3 a_cc by 4e-6 of its value."
  },
  {
   "property": "C86",
   "status": "partial",
   "theorems": [
    "C86_coulomb",
    "C86_modifiers",
    "C86_coulomb_partial",
    "C86_energy",
    "C86_no_cutoff",
    "C86_bump",
    "C86_bump_partial",
    "C86_dent",
    "C86_layers_collapse",
    "C86_refuted_coulomb",
    "C86_refuted_bump"
   ],
   "note": "Both claims are false in general: with several orbitals the potential also couples the orbitals of a site (C86_refuted_coulomb), the bump replaces the height instead of adding to it, so layers collapse (C86_refuted_bump). Proved for single orbitals and a positive cutoff, and for a layer at z = 0. Without cutoff a site at the charge gets an infinite energy (C86_no_cutoff)."
  },
  {
   "property": "C87",
   "status": "proved",
   "theorems": [
    "C87",
    "C87_accepted",
    "C87_mask",
    "C87_order",
    "C87_data",
    "C87_twice",
    "C87_crop",
    "C87_shape",
    "C87_without_ids"
   ],
   "note": "For sites with sublattice ids; without ids every index raises AttributeError (C87_without_ids)."
  },
  {
   "property": "C88",
   "status": "partial",
   "theorems": [
    "C88_partial",
    "C88_any",
    "C88_answers",
    "C88_absent",
    "C88_refuted"
   ],
   "note": "False when no site is of the sublattice: site 0 is returned as the nearest (C88_absent, C88_refuted). Proved when there is such a site; C88_any without a sublattice. Distances are compared by their squares."
  },
  {
   "property": "C89",
   "status": "partial",
   "theorems": [
    "C89_partial",
    "C89_column",
    "C89_pairs",
    "C89_crop",
    "C89_text",
    "C89_mirror",
    "C89_mirror_unknown",
    "C89_slice",
    "C89_refuted"
   ],
   "note": "False for sweep[:, j], which comes out transposed (C89_column), and for two index arrays, which are paired (C89_pairs). Proved for an integer first or a slice in one of the places (C89_partial); cropping, saving, mirroring and nearest slices are proved without guard. mirrored with a wrong axis returns None."
  },
  {
   "property": "C90",
   "status": "partial",
   "theorems": [
    "C90_formula",
    "C90_shift",
    "C90_weights",
    "C90_short",
    "C90_refuted"
   ],
   "note": "False: the peak moves by one sample, by two if the number of samples is even (C90_shift). C90_formula is what is computed; fewer than 11 samples raise, except 7, which become one constant (C90_short)."
  },
  {
   "property": "C91",
   "status": "partial",
   "theorems": [
    "C91_partial",
    "C91_map",
    "C91_point",
    "C91_unknown",
    "C91_multi",
    "C91_refuted"
   ],
   "note": "False when nothing is selected: after an earlier calculation the first of no indices is read (C91_refuted). Proved when at least one site is selected. The values of a column are those of C21/C62 and are opaque here."
  },
  {
   "property": "C92",
   "status": "partial",
   "theorems": [
    "C92_partial",
    "C92_moments",
    "C92_odd",
    "C92_few",
    "C92_refuted"
   ],
   "note": "False when the middle of the spectrum is within 10^-4 of its half width around zero: C++ rounds b to zero and Python does not (C92_refuted). Proved otherwise. With an odd number of moments Python leaves the last one zero (C92_odd), below two it raises (C92_few); kernels never ask for those. Exact arithmetic; energy bounds are given, not searched for."
  },
  {
   "property": "C93",
   "status": "partial",
   "theorems": [
    "C93_partial",
    "C93_system",
    "C93_lattice",
    "C93_offset",
    "C93_old_system",
    "C93_attributes",
    "C93_version",
    "C93_unversioned",
    "C93_overwrites",
    "C93_props_when",
    "C93_props",
    "C93_props_refuted",
    "C93_file",
    "C93_full_name",
    "C93_refuted"
   ],
   "note": "False as stated for a name without extension when a file with exactly that name exists: load prefers the old file (C93_refuted). Proved otherwise. The option props of pickleable, which no class uses, never restores anything and usually raises (C93_props, C93_props_refuted). Conversions between Eigen and NumPy, gzip and the pickle format itself are taken as faithful."
  },
  {
   "property": "C94",
   "status": "partial",
   "theorems": [
    "C94_partial",
    "C94_all",
    "C94_exists",
    "C94_refuted"
   ],
   "note": "False when a solver returns only some states of a level (arpack(k), feast): the local density then depends on the choice (C94_refuted). Proved when no level is cut, and without condition when all N states are returned (C94_all). C94_exists is the spectral theorem: such states exist for every Hermitian matrix."
  },
  {
   "property": "C95",
   "status": "proved",
   "theorems": [
    "C95_moments",
    "C95_dos",
    "C95_conductivity",
    "C95_velocity"
   ],
   "note": "The generator is idealised: each number is k/M, k = 0 .. M-1 equally likely and independent; that mt19937 behaves like that is not modelled. mean (Mean.v) is the average over all draws."
  },
  {
   "property": "C96",
   "status": "partial",
   "theorems": [
    "C96_outer_refuted",
    "C96_shift",
    "C96_twice_refuted",
    "C96_tolerance_refuted",
    "C96_cells_partial",
    "C96_tolerance",
    "C96_lines",
    "C96_bonds",
    "C96_inner",
    "C96_lead",
    "C96_labels"
   ],
   "note": "False as stated: bonds between two cells of the outermost level are missing, those between two cells of an inner level are drawn twice, and the relative tolerance of FuzzySet merges cells if one period is about a thousand times another. Proved: copies are exactly the cells 1..n steps away, each once; exact number of times each bond is drawn; every line is a bond of the crystal. Colours, widths and the rotation of axes are not modelled."
  },
  {
   "property": "C97",
   "status": "proved",
   "theorems": [
    "C97_mean",
    "C97_onsager",
    "C97_symmetric"
   ],
   "note": "Averages are over finitely many equally likely values of the random numbers (as in C95). Real arithmetic."
  },
  {
   "property": "C98",
   "status": "proved",
   "theorems": [
    "C98_matrix",
    "C98_ldos",
    "C98_matrix_modified",
    "C98_ldos_modified",
    "C98_ldos_system",
    "C98_ldos_generated"
   ],
   "note": "C98_ldos_generated adds site and hopping generators whose energies fit the sites they meet (otherwise C46 and C17 have counterexamples); C98_ldos_system is for every consistent system. C98_matrix_modified and C98_ldos_modified include onsite and hopping modifiers; with several orbitals C99 says which formulas treat sites one by one. Composition of C09, C17, C45, C53 with the compression of contributions into rows (Compress.v). Number type complex; the real types give the same elements when all energies are real (C17). Reordering algorithms are used for connected matrices only (C29). Exact arithmetic."
  },
  {
   "property": "C99",
   "status": "partial",
   "theorems": [
    "C99_refuted",
    "C99_formula_partial",
    "C99_mixed",
    "C99_sites_alone",
    "C99_select"
   ],
   "note": "False as stated: in multi-orbital models energy + sites.x adds the coordinate of site j to column j if there are as many sites as orbitals (C99_refuted, exact cases in C99_sites_alone), raises otherwise; asking for sites and only one or two of x, y, z raises (C99_mixed); energy[sub_id == name] raises (C99_select). Proved: every formula without sites, and with sites in single-orbital models or next to all three coordinates, is computed site by site and accepted."
  }
 ]
}