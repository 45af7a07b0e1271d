{
 "C03": {
  "status": "proved",
  "note": "Exact behaviour for all arguments; the documented behaviour is false (C03_scatter_slice_all_refuted)."
 },
 "C10": {
  "status": "proved",
  "note": "GOOD_PRIMES is [2,3,5]; float division x/prime is modelled as exact integer division (exact below 2^53)."
 },
 "C09": {
  "status": "proved",
  "note": "Exact real arithmetic replaces floats. Additional finding: the default grid can be refused by the constructor's own check."
 },
 "C11": {
  "status": "proved",
  "note": "Exact real arithmetic replaces floats."
 },
 "C12": {
  "status": "proved",
  "note": "The documented refusal of too-small grids does not exist (C12_small_grid_check_refuted); C12_any_grid_accepted characterises what happens instead."
 },
 "C53": {
  "status": "proved",
  "note": "C53_default_origin_refuted is the second half."
 },
 "C18": {
  "status": "proved",
  "note": "Exact reals."
 },
 "C19": {
  "status": "proved",
  "note": "Exact reals."
 },
 "C20": {
  "status": "proved",
  "note": "Exact reals."
 },
 "C13": {
  "status": "proved",
  "note": "Exact complex arithmetic; the FFT library is represented by its DFT contract. The identity for GkSpace one would expect is refuted by the scaling theorem."
 },
 "C14": {
  "status": "proved",
  "note": "Exact complex arithmetic; FFT library represented by its DFT contract."
 },
 "C15": {
  "status": "proved",
  "note": "Both halves proved; the second is the limit of history independence (C15_result_without_arr_out_refuted, C15_shared_array_shows_newest). PyFFTW backend for the second half."
 },
 "C16": {
  "status": "proved",
  "note": "Partition, stick ownership, counts cover, local re-sorting keeps the order, gather after scatter; the batch shape () failure is C16_scalar_shape_refuted."
 },
 "C17": {
  "status": "proved",
  "note": "For P <= number of sticks and P <= nx; C17_too_many_ranks_fail shows what happens otherwise."
 },
 "C21": {
  "note": "For three non-negative integers; spglib symmetry detection at the end of Crystal.__init__ not modelled. Negative repeats are refused with AssertionError (message helper), not TypeError."
 },
 "C22": {
  "status": "proved",
  "note": "C22_numel_exact is the general formula; the expected scaling for plain valences is refuted."
 },
 "C23": {
  "status": "proved",
  "note": "Proved for both generators; KList.mpgrid's documented mesh is refuted for all arguments."
 },
 "C24": {
  "status": "proved",
  "note": "The spglib call is represented by its contract (mapping table, grid). The time-reversal branch is characterised exactly and the faithful sampling it should give is refuted in general."
 },
 "C55": {
  "status": "proved",
  "note": "C55_k_tpiba_exact is the exact result; the documented meaning is refuted."
 },
 "C26": {
  "status": "proved",
  "note": "The two exceptions (reduction and assignment with coinciding lengths) are proved as C26_reduce_basis_refuted and C26_setitem_cuts_basis_refuted. Ufuncs with several outputs and 'order' are not modelled."
 },
 "C27": {
  "status": "proved",
  "note": "HO/LU levels are those returned on k-group roots (None elsewhere). Too few bands being accepted contradicts the expected refusal (C27_too_few_bands_refuted)."
 },
 "C28": {
  "status": "proved",
  "note": "Exact reals; erf is defined by its integral and its properties (including the Gaussian integral) are proved in ErfBase."
 },
 "C29": {
  "status": "proved",
  "note": "Exact reals. The condition on the initial bracket is necessary: see C30."
 },
 "C30": {
  "status": "proved",
  "note": "Exact reals; the capacity bound comes from the jump of the clamp at 50 widths."
 },
 "C34": {
  "status": "proved",
  "note": "Invalid list values raise TypeError instead of ValueError because the message helper is broken. logging_enabled's effect on the logging module is not modelled."
 },
 "C39": {
  "status": "proved",
  "note": "Labels of more than 30 characters: see C40."
 },
 "C40": {
  "status": "proved",
  "note": "Both directions proved."
 },
 "C56": {
  "status": "proved",
  "note": "Labels of at most 30 characters, at most 500 timers. Recursion: C56_recursion_refuted."
 },
 "C35": {
  "status": "proved",
  "note": "Every physics (abstract solver, mixer, error). The unconditional monotonicity is refuted."
 },
 "C36": {
  "status": "proved",
  "note": "Collectives inside the distributed FFT of compute_rho are not modelled."
 },
 "C31": {
  "status": "proved",
  "note": "Both mixers; arbitrary caller behaviour between calls; matrix inverse arbitrary."
 },
 "C32": {
  "status": "proved",
  "note": "Both mixers; matrix inversion through its contract. The raising corner is C32_repeat_refuted."
 },
 "C33": {
  "status": "proved",
  "note": "Exact effect on the heap; purity as one would expect it is refuted (C33_first_call_refuted, C33_genbro_returns_argument_refuted)."
 },
 "C57": {
  "status": "proved",
  "note": "Exact arithmetic; np.linalg.inv by contract (two-sided inverse when it returns)."
 },
 "C58": {
  "status": "proved",
  "note": "C58_singular_blocks_refuted is the blocking case."
 },
 "C46": {
  "status": "proved",
  "note": "All grids, bases, potentials. Exact arithmetic: the single-precision conversion inside the zgemm wrapper (np.asarray(out, \"F\") is a dtype) is left out here and quantified in C90."
 },
 "C59": {
  "status": "proved",
  "note": "scf divides vloc_g0 by the grid size once too often (C59_scf_preconditioner_diagonal_refuted)."
 },
 "C37": {
  "status": "proved",
  "note": "for every band-group size, numeig >= 1, numwork >= 2 and any eigh; the expansion theorem assumes the eigh contract and a Hermitian Hamiltonian"
 },
 "C38": {
  "status": "proved",
  "note": "For any eigh obeying its contract. C38_every_exit characterises every exit; C38_last_iteration_refuted shows that the difference occurs."
 },
 "C60": {
  "status": "proved",
  "note": "The expected acceptance is false (C60_exact_start_refuted)."
 },
 "C25": {
  "status": "proved",
  "note": "spglib by contract. Limits: C25_filter_group_refuted, C25_history_refuted."
 },
 "C42": {
  "status": "proved",
  "note": "Also norm drift for orders 1 and 4 and the eigenstate phase error. Spin cases: C42_spin_polarised_refuted, C42_noncollinear_refuted."
 },
 "C61": {
  "status": "proved",
  "note": "The list case contradicts the documented normalisation (C61_band_list_not_normalised_refuted)."
 },
 "C62": {
  "status": "proved",
  "note": "C62_etrs_split_step_refuted is the second half."
 },
 "C49": {
  "status": "proved",
  "note": "Potential = Coulomb sum, energy = half overlap, >= 0 and zero iff no G<>0 component, quadratic, linear, zero average, Poisson equation, reality, spin-total dependence, rejection of other spin counts."
 },
 "C63": {
  "status": "proved",
  "note": "The non-default axes are C63_nonnegative_axis_refuted and C63_inner_axis_refuted."
 },
 "C64": {
  "status": "proved",
  "note": "Any erfc. Missing images: C64_all_images_in_skewed_cells_refuted, C64_equivalent_positions_refuted."
 },
 "C65": {
  "status": "proved",
  "note": "See C65_radial_transform_any_mesh_refuted and C65_core_correction_refuted."
 },
 "C66": {
  "status": "proved",
  "note": "Core correction not applied and mixed families failing are C66_core_correction_refuted and C66_mixed_families_refuted."
 },
 "C41": {
  "status": "proved",
  "note": "The ibrav=14 error (radicand uses cosAB twice) and the A/B/C failure are C41_triclinic_refuted and C41_traditional_input_refuted."
 },
 "C67": {
  "status": "proved",
  "note": "The expected independence is refuted (shared default dictionary modified in place)."
 },
 "C68": {
  "status": "proved",
  "note": "The boundary loss occurs (C68_boundary_refuted)."
 },
 "C43": {
  "status": "proved",
  "note": "Labels, rows, coupling matrix and the assembled operator (equal to the textbook separable operator for every choice of harmonics), diagonal, Hermiticity, translations. SciPy's sph_harm_y is a parameter."
 },
 "C44": {
  "status": "proved",
  "note": "Exact for cubics, weights sum to one, fourth-order error bound with attained constant, table range. Note the nodes start at the nearest point (rint), so half of the queries are extrapolated."
 },
 "C69": {
  "status": "proved",
  "note": "The source comment says even meshes fail; in fact they drop the last interval (C69_simpson_even_mesh_refuted)."
 },
 "C45": {
  "status": "proved",
  "note": "The last three clauses contradict the expected round trip (C45_addressed_read_refuted, C45_parse_wfns_refuted, C45_repeated_vector_refuted); odd lengths are refused except 1 and 3 numbers (C45_odd_length_refuted)."
 },
 "C70": {
  "status": "proved",
  "note": "C70_aliasing_refuted shows the failure on small grids."
 },
 "C47": {
  "status": "proved",
  "note": "Repeated k-points: C47_routes_agree_refuted."
 },
 "C48": {
  "status": "proved",
  "note": "Stable permutation sorted by (key rounded to 10 decimals, x, y, z), independent of input order for distinct vectors; reorder conjugates by the permutation. Keys within 1e-10 are not guaranteed to tie (refuted separately)."
 },
 "C52": {
  "status": "proved",
  "note": "C52_unit_cell_refuted and C52_wrapped_list_refuted show the limits."
 },
 "C71": {
  "status": "proved",
  "note": "Ball and shifted-ball averages as RInt over shells/caps; process distribution by list induction. For a ball containing the origin (d < R) the code's arctanh is nan (not modelled)."
 },
 "C72": {
  "status": "proved",
  "note": "C72_fixedeps_nonq0 is the exact rule, C72_fixedeps_nonq0_refuted the deviation from the identity."
 },
 "C51": {
  "status": "proved",
  "note": "The second sentence lists documented input that the reader rejects or alters (refuted parts)."
 },
 "C73": {
  "status": "proved",
  "note": "The last sentence lists departures from the expected reader (refuted theorems)."
 },
 "C74": {
  "status": "proved",
  "note": "The last sentence lists documented inputs that are refused or ignored (refuted theorems)."
 },
 "C75": {
  "status": "proved",
  "note": "The statement records the actual behaviour, including the findings (epsilon options never applied; scale factor and metal flag lost). Only JSON numbers are modelled as values."
 },
 "C76": {
  "status": "proved",
  "note": "Formula, schedule independence, reality and signs for every input; repeated k-points characterised (zero rows, C76_repeated_kpoint_refuted); an empty band is required (C76_needs_empty_band). The einsum order of summation and floating point are not modelled."
 },
 "C77": {
  "status": "proved",
  "note": "Momentum conservation for every element, exactness of the -q index (first position, in-cell q-points) and permutation property of the G map on complete spheres; behaviour for wrapped q-lists refuted by a concrete list."
 },
 "C78": {
  "status": "proved",
  "note": "Characterises the code on the whole domain, exceptional region included; the statement lists the deviations as findings, each with a _refuted theorem. Exact reals; einsum as sums."
 },
 "C79": {
  "status": "proved",
  "note": "The statement's positive and negative parts are all proved; printing itself and rounding of printed digits other than np.around(6) are not modelled."
 },
 "C80": {
  "status": "proved",
  "note": "Positions, density, kick, first moment, the whole call with file effects, interruption; write_freq ignored and file lost on interruption are proved as refutations of the documentation. Propagation step and setup arbitrary; serial branch; numel <> 0."
 },
 "C81": {
  "status": "proved",
  "note": "scipy simpson is an arbitrary linear combination of the samples; T = 0 with the polynomial weight (NaN in the code) outside the theorems."
 },
 "C82": {
  "status": "proved",
  "note": "Exact reals."
 },
 "C83": {
  "status": "proved",
  "note": "Contiguous arrays; a broadcast with different kinds or lengths on the two sides is an erroneous MPI call without defined outcome. Statement says what the code does; \"a disagreement is reported on every process\" is refuted by C83_disagreement_hangs_refuted."
 },
 "C84": {
  "status": "proved",
  "note": "The statement says exactly what the code does; the parts a user would not expect are the theorems named _refuted."
 },
 "C85": {
  "status": "proved",
  "note": "The statement says exactly what the code does; the parts a user would not expect are the theorems named _refuted."
 },
 "C87": {
  "status": "proved",
  "note": "The statement says exactly what the code does; the parts a user would not expect are the theorems named _refuted."
 },
 "C90": {
  "status": "proved",
  "note": "The statement says exactly what the code does; the parts a user would not expect are the theorems named _refuted."
 },
 "C91": {
  "status": "proved",
  "note": "The statement says exactly what the code does, including the two defects (_refuted). Reading the input file is C51/C74; scf itself is not part of this property."
 },
 "C92": {
  "status": "proved",
  "note": "The libraries' documented contracts (scaling, overwrite_x) are definitions of the model. The statement includes the CuPy defect (C92_distributed_cupy_refuted)."
 },
 "C89": {
  "status": "proved",
  "note": ""
 },
 "C93": {
  "status": "proved",
  "note": "The library routine is a parameter (contract stated as a hypothesis of C93_lowest_eigenpairs); non-vacuity on a one-plane-wave Hamiltonian."
 },
 "C94": {
  "status": "proved",
  "note": "The replaced table (spin) is C94_second_spin_refuted; the statement includes it."
 },
 "C95": {
  "status": "proved",
  "note": "The two findings are C95_first_band_ignored_refuted and C95_later_kpoints_refuted. The columns are in exact arithmetic; printing is not modelled."
 },
 "C96": {
  "status": "proved",
  "note": "The exceptions are proved as C96_coinciding_axis_refuted, C96_unsupported_refuted and C96_integrate_other_refuted. MPI behaviour (a reduction completes only when all ranks take part; MAX/MIN undefined for complex) is taken from the MPI standard."
 },
 "C97": {
  "status": "proved",
  "note": "The exceptions are C97_no_neighbour_refused, C97_short_shift_refuted and C97_box. Random words and the nearest-point search are arbitrary; statistical convergence of the mean is not claimed."
 },
 "C101": {
  "status": "proved",
  "note": "the theorem with suffix _refuted proves the four differences the statement lists"
 },
 "C102": {
  "status": "proved",
  "note": "C102_one_coordinate_refuted proves the broadcasting exception the statement lists"
 },
 "C104": {
  "status": "proved",
  "note": "C104_conj_real_refuted proves the exception for real data the statement lists; NumPy views of data that is not in C order (reshape) are not modelled"
 },
 "C105": {
  "status": "proved",
  "note": ""
 },
 "C106": {
  "status": "proved",
  "note": ""
 },
 "C108": {
  "status": "proved",
  "note": ""
 },
 "C109": {
  "status": "proved",
  "note": ""
 },
 "C110": {
  "status": "proved",
  "note": ""
 },
 "C111": {
  "status": "proved",
  "note": ""
 },
 "C112": {
  "status": "proved",
  "note": ""
 },
 "C113": {
  "status": "proved",
  "note": ""
 },
 "C114": {
  "status": "proved",
  "note": ""
 },
 "C115": {
  "status": "proved",
  "note": ""
 },
 "C116": {
  "status": "proved",
  "note": ""
 },
 "C117": {
  "status": "proved",
  "note": ""
 }
}