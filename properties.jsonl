{"id": "C01", "title": "Block scatter covers every item exactly once", "statement": "scatter_slice(len, size, rank) taken over rank = 0..size-1 are contiguous, ordered, pairwise disjoint half-open ranges whose concatenation is exactly [0, len): each item of a distributed axis is owned by one and only one rank.", "quantifier": "every array length len >= 0 and every communicator size >= 1", "why_tests_cant": "tests run for a handful of (len, size) pairs and one MPI world size; off-by-one remainders only show at particular residues.", "anchors": ["src/qtm/mpi/utils.py: scatter_slice", "src/qtm/mpi/utils.py: scatter_len"]}
{"id": "C02", "title": "Block scatter is balanced and its length helper agrees with it", "statement": "scatter_len(len,size,rank) equals the length of scatter_slice(len,size,rank), no two ranks differ by more than one item, larger shares go to lower ranks, and scatter_len(len,size,None) returns exactly the per-rank counts, which sum to len (so they are valid Scatterv/Gatherv counts).", "quantifier": "every len >= 0, size >= 1 and pair of ranks", "why_tests_cant": "needs all residues len mod size and all rank pairs.", "anchors": ["src/qtm/mpi/utils.py: scatter_len, scatter_slice"]}
{"id": "C03", "title": "scatter_slice without a rank never returns all slices", "statement": "scatter_slice(len, size) with grp_rank omitted: a negative len or non-positive size raises AssertionError; size 1 returns one slice object whose bounds are length-one arrays; every size > 1 raises ValueError. The documented tuple of all per-rank slices is never returned.", "quantifier": "every len and size", "why_tests_cant": "single-process tests never take that branch.", "anchors": ["src/qtm/mpi/utils.py: scatter_slice"], "intended": "As documented, scatter_slice(len, size) with grp_rank omitted returns the tuple of all per-rank slices."}
{"id": "C04", "title": "k-points are distributed without loss or duplication", "statement": "Both KList.scatter and klist_distribute split an input k-list over groups so that every (k, weight) pair appears in exactly one group, in input order inside a group, total weight is preserved, and (klist_distribute) a split leaving a group empty is refused with ValueError.", "quantifier": "every k-list, every number of groups and both round_robin settings", "why_tests_cant": "loss of one k-point at an unlucky remainder only changes numerical results silently.", "anchors": ["src/qtm/klist.py: klist_distribute", "src/qtm/kpts.py: KList.scatter"]}
{"id": "C05", "title": "MPI process groups partition the world", "statement": "Building DFTCommMod / split_comm_pwgrp for a world of size P puts every world rank in exactly one k-group and one plane-wave/band sub-group, the group roots listed for inter-k-group reductions are precisely one per k-group, and a group count that does not divide P is refused on all ranks.", "quantifier": "every world size, every requested number of k-groups and pw-group size", "why_tests_cant": "tests run on one or two world sizes.", "anchors": ["src/qtm/mpi/gspace.py: split_comm_pwgrp", "src/qtm/dft/config.py: DFTCommMod"]}
{"id": "C06", "title": "G-vector to FFT-grid index map is a bijection", "statement": "cryst2idxgrid maps the G-vectors admitted by check_g_cryst for a grid of shape (n1,n2,n3) one-to-one onto 0..n1*n2*n3-1; out-of-range vectors are refused, and distinct admitted vectors never share a grid point.", "quantifier": "every positive grid shape and all integer G triples", "why_tests_cant": "a collision needs a specific pair of vectors at the Nyquist boundary, different for even and odd grids.", "anchors": ["src/qtm/gspace/base.py: cryst2idxgrid, check_g_cryst"]}
{"id": "C07", "title": "G-vector reordering is a sorted, invertible permutation", "statement": "GSpaceBase stores its input G-vectors as a permutation sorted by (iy, iz, ix) grid coordinates and the published idxsort undoes it: field data given in the caller's order can be converted to the internal order and back without change.", "quantifier": "every list of distinct admissible G-vectors and every data array", "why_tests_cant": "permutation inverse mistakes vanish on already-sorted inputs.", "anchors": ["src/qtm/gspace/base.py: GSpaceBase.__init__, _sort_g"]}
{"id": "C08", "title": "G = 0 is the first vector iff it is present", "statement": "For every G-space that contains G=0 it is stored at index 0 (has_g0 is True exactly then), so code using data_g0 / [...,0] reads the average of the field.", "quantifier": "every admissible G list and grid shape", "why_tests_cant": "holds only because of the ordering; must hold for all lattices/cutoffs.", "anchors": ["src/qtm/gspace/base.py: GSpaceBase.has_g0", "src/qtm/containers/field.py: data_g0"]}
{"id": "C09", "title": "Plane-wave sphere selection is exact", "statement": "GSpace contains exactly the grid G-vectors with |G|^2 <= 2*ecut and GkSpace exactly the G of its parent with |G+k|^2 <= 2*ecutwfn, with no duplicates, in non-decreasing input order, and the kinetic cutoff inequality uses the Cartesian metric of the reciprocal lattice.", "quantifier": "every lattice, cutoff, k-point", "why_tests_cant": "boundary vectors depend on the lattice; tests sample a few crystals.", "anchors": ["src/qtm/gspace/gspc.py: GSpace.__init__", "src/qtm/gspace/gkspc.py: GkSpace.__init__"]}
{"id": "C10", "title": "FFT grid rounding is the least admissible size", "statement": "optimal_grid_shape terminates and replaces every dimension n by the least m >= n whose only prime factors are 2, 3, 5 (7).", "quantifier": "every positive grid dimension", "why_tests_cant": "termination and minimality are universal claims.", "anchors": ["src/qtm/gspace/gspc.py: optimal_grid_shape, is_prime / gen_grid_shape in interfaces/qe/parse_inp.py"]}
{"id": "C11", "title": "The minimal FFT grid contains the whole cutoff sphere", "statement": "For every G with |G|^2 <= 2*ecut the minimal grid shape has an admissible index for it in all three directions (no plane wave of the sphere is lost).", "quantifier": "every lattice and cutoff", "why_tests_cant": "skewed lattices make the bounding box differ from naive estimates.", "anchors": ["src/qtm/gspace/gspc.py: minimal_grid_shape"]}
{"id": "C12", "title": "User-supplied FFT grids are accepted whatever their size and truncate the G-list", "statement": "Constructing a GSpace with an explicit valid grid_shape never raises because the grid is too small (as long as it holds at least two vectors inside the cutoff and one outside): the space is built on that grid and its G-list is exactly the vectors inside the cutoff that are representable on it, the others being dropped silently.", "quantifier": "every lattice, cutoff and grid_shape", "why_tests_cant": "no test passes a too-small grid.", "anchors": ["src/qtm/gspace/gspc.py: check_grid_shape"], "intended": "Constructing a GSpace with an explicit grid_shape smaller than the minimal one raises ValueError."}
{"id": "C13", "title": "g2r followed by r2g is the identity on plane-wave coefficients", "statement": "For any coefficients on a G-list the grid field is the band-limited Fourier sum and r2g is the projection on plane waves; transforming to the real-space grid and back returns the coefficients exactly for GSpace and the coefficients multiplied by the number of grid points for GkSpace (where the inverse transform is not normalised).", "quantifier": "every grid shape, every G-list, every complex coefficient vector", "why_tests_cant": "universal over sizes; tests sample random data with tolerance.", "anchors": ["src/qtm/fft/base.py", "src/qtm/fft/full.py: FFT3DFull", "src/qtm/fft/backend/base.py"], "intended": "For any coefficients on a G-list, transforming to the real-space grid and back returns them exactly (in exact arithmetic), for both GSpace and GkSpace normalisations, and the grid field is the band-limited Fourier sum."}
{"id": "C14", "title": "Stick-based FFT equals the full 3-D FFT", "statement": "FFT3DSticks and FFT3DFull give the same result for g2r and r2g on the same grid and G-list.", "quantifier": "every grid shape, G-list (any set of occupied sticks) and input data", "why_tests_cant": "depends on the set of occupied columns; universal over all of them.", "anchors": ["src/qtm/fft/sticks.py: FFT3DSticks", "src/qtm/fft/full.py: FFT3DFull"]}
{"id": "C15", "title": "FFT work buffers carry no state between calls", "statement": "The result of each FFT call that passes arr_out depends only on its own input, whatever sequence of g2r/r2g calls was made on the object before and whatever the work arrays contained. Called without arr_out, FFT3DFull.g2r hands out its work array, which after every later call holds the newest result.", "quantifier": "every call history on one FFT object", "why_tests_cant": "stale buffer contents only show up after particular interleavings.", "anchors": ["src/qtm/fft/full.py", "src/qtm/fft/sticks.py"], "intended": "The result of each FFT call depends only on its own input, whatever sequence of g2r/r2g calls was made on the object before."}
{"id": "C16", "title": "Distributed G-space scatter/gather round-trips", "statement": "In a distributed G-space the per-rank G-vector slices partition the G-list, whole sticks stay on one rank, and gather_g(scatter_g(x)) = x, also for real-space slabs, for every batch shape with at least one dimension; a single vector (batch shape ()) always raises TypeError in both.", "quantifier": "every G-list, grid and number of ranks not exceeding the number of sticks", "why_tests_cant": "needs all rank counts and stick layouts.", "anchors": ["src/qtm/mpi/gspace.py: DistGSpaceBase"], "intended": "In a distributed G-space the per-rank G-vector slices partition the G-list, whole sticks stay on one rank, and gather_g(scatter_g(x)) = x; the same for real-space slabs."}
{"id": "C17", "title": "Distributed FFT equals the serial FFT", "statement": "Gathering the per-rank outputs of the distributed g2r / r2g equals the serial transform of the gathered input; the all-to-all counts sent by rank i to rank j equal those j expects from i.", "quantifier": "every rank count, grid, stick layout, and input", "why_tests_cant": "count mismatches hang MPI only at particular sizes.", "anchors": ["src/qtm/mpi/gspace.py: DistFFT3D*, r2g, g2r"]}
{"id": "C18", "title": "Lattice coordinate conversions are inverse to each other", "statement": "cryst2cart/cart2cryst, cart2alat/alat2cart, cryst2alat/alat2cryst (and tpiba for the reciprocal lattice) are mutual inverses and a singular set of axes is refused. from_bohr keeps the axes given and from_alat multiplies them by alat, axes_alat returning them; either refuses dependent axes.", "quantifier": "every non-singular lattice and vector", "why_tests_cant": "tests use a few lattices and tolerances.", "anchors": ["src/qtm/lattice.py: Lattice, RealLattice, ReciLattice"], "intended": "cryst2cart/cart2cryst, cart2alat/alat2cart, cryst2alat/alat2cryst (and tpiba for the reciprocal lattice) are mutual inverses and a singular set of axes is refused."}
{"id": "C19", "title": "Metric, dot and norm agree with Cartesian geometry", "statement": "dot / norm2 / norm computed from crystal coordinates equal those of the Cartesian vectors; norm2 >= 0 and zero only for the zero vector; cellvol squared is the determinant of the metric.", "quantifier": "every non-singular lattice and vectors", "why_tests_cant": "algebraic identity over all lattices.", "anchors": ["src/qtm/lattice.py: Lattice.dot, norm2, metric"]}
{"id": "C20", "title": "Reciprocal lattice is dual to the real lattice", "statement": "ReciLattice.from_reallat gives b_i . a_j = 2 pi delta_ij, from_recilat inverts it, and cellvol_real * cellvol_reci = (2 pi)^3.", "quantifier": "every non-singular real lattice", "why_tests_cant": "algebraic identity over all lattices.", "anchors": ["src/qtm/lattice.py: ReciLattice.from_reallat, RealLattice.from_recilat"]}
{"id": "C21", "title": "Supercell generation preserves the crystal", "statement": "gen_supercell with repeats (n1,n2,n3) multiplies the number of atoms of each species by n1*n2*n3, enlarges the cell volume by the same factor, and places atoms exactly at the lattice translates (in Cartesian coordinates) of the original ones, each once.", "quantifier": "every crystal and positive repeats", "why_tests_cant": "axis-order mistakes only show for anisotropic repeats and skewed cells.", "anchors": ["src/qtm/crystal/crystal.py: Crystal.gen_supercell"]}
{"id": "C22", "title": "Electron count of a supercell scales", "statement": "numel of the supercell is n1*n2*n3 times the sum over species of number of atoms times z, where z is the species' valence if it was given by a pseudopotential and -1 otherwise; so it is n1*n2*n3 times the primitive numel when every species has a pseudopotential. A species is refused, with TypeError, exactly when its pseudopotential argument is of a wrong kind or its mass is not a non-negative float.", "quantifier": "every crystal and repeats", "why_tests_cant": "tests only use pseudopotential species.", "anchors": ["src/qtm/crystal/crystal.py: Crystal.gen_supercell, numel", "src/qtm/crystal/basis_atoms.py: BasisAtoms"], "intended": "numel of the supercell is n1*n2*n3 times numel of the primitive crystal, including species given by a plain valence."}
{"id": "C23", "title": "Monkhorst-Pack meshes sample the zone uniformly", "statement": "Without reduction gen_monkhorst_pack_grid returns exactly n1*n2*n3 pairwise inequivalent points (i + s/2)/n modulo 1 with equal weights summing to 1, and refuses malformed requests; the older KList.mpgrid returns points that are all equivalent to each other.", "quantifier": "every mesh shape and shift", "why_tests_cant": "all shapes/shift combinations.", "anchors": ["src/qtm/kpts.py: gen_monkhorst_pack_grid, monkhorst_pack_grid"], "intended": "Without symmetry/time-reversal reduction the generated list has exactly n1*n2*n3 pairwise inequivalent points (i + s/2)/n modulo 1 with equal weights summing to 1."}
{"id": "C24", "title": "Time-reversal reduction keeps a faithful sampling", "statement": "With symmetry reduction through spglib the weighted average over the reduced list equals the average over the full mesh for every function invariant under the folding spglib reports. With time reversal but no symmetry the list is exactly the octant 0 <= i <= n/2 of the mesh with equal weights, which in general neither represents every mesh point up to k -> -k nor weights the points by multiplicity.", "quantifier": "every mesh shape and shift", "why_tests_cant": "tests sample few even meshes.", "anchors": ["src/qtm/kpts.py: gen_monkhorst_pack_grid"], "intended": "With time reversal only, the reduced list with its weights represents every mesh point (up to k -> -k) with total weight equal to its multiplicity."}
{"id": "C25", "title": "Density symmetrisation is a projection", "statement": "Whenever the operations kept by the grid filter form a space group whose rotations preserve the G-list (automatic for cubic grids and grids the rotations preserve), symmetrising a field gives the group average: an invariant field, idempotent, leaving already symmetric fields and the G=0 component (total charge) unchanged and non-negative densities non-negative; distributing the field over ranks changes nothing (a single distributed field of shape () raises TypeError). On other grids the filter can leave a list that is not a group, and the list depends on the grids used earlier with the same crystal. An operation survives the filter exactly when its translation lies within 1e-5 grid steps of a grid point.", "quantifier": "every finite symmetry group acting on the grid and every field", "why_tests_cant": "group-theoretic identity over all groups/fields.", "anchors": ["src/qtm/symm/symmetrize_field.py: SymmFieldMod"], "intended": "Symmetrising a field with the crystal's symmetry operations yields an invariant field, is idempotent, leaves already symmetric fields and the G=0 component (total charge) unchanged."}
{"id": "C26", "title": "Containers never mix bases and keep their type", "statement": "Arithmetic on containers, including in-place operators and out=, is carried out only when all containers share the same type (same G-space); otherwise TypeError and nothing is written; results whose last axis has the basis length are containers of that type, others bare arrays, so a reduction over the basis axis yields a bare array except when the axis before it also has the basis length; reading by index never cuts the basis axis; assignment by index is carried out exactly when the selected part ends in an axis of basis length. Reshaping succeeds exactly when the element counts agree (RuntimeError otherwise) and keeps the elements in order.", "quantifier": "every ufunc, argument list, shape and index expression", "why_tests_cant": "the product space of operand kinds and shapes is unbounded.", "anchors": ["src/qtm/containers/buffer.py: Buffer.__array_ufunc__, __getitem__"], "intended": "Arithmetic on containers is carried out only when all containers share the same type (same G-space); otherwise NotImplemented/TypeError; results whose last axis still spans the basis are containers of that type, and indexing never cuts the basis axis."}
{"id": "C27", "title": "Fixed occupation fills exactly the electrons", "statement": "Fixed occupations refuse odd electron counts and spin-polarised input; for a positive even count they set exactly the min(numel/2, numbnd) lowest bands to 1 and the others to 0; if the bands suffice the weighted sum is numel (when the weights sum to one per spin pair) and the highest occupied / lowest unoccupied eigenvalues over all k-points are returned; if they do not, the call succeeds and the sum is 2*numbnd < numel. With no electrons at all the call raises ValueError.", "quantifier": "every k-list, band count and electron count", "why_tests_cant": "universal over sizes.", "anchors": ["src/qtm/dft/occup/fixed.py: compute_occ"], "intended": "fixed occupations refuse odd electron counts and too few bands, set exactly numel/2 lowest bands to 1 and others 0, hold 2*sum_k w_k sum_b occ = numel when weights sum to 1, and report the highest occupied / lowest unoccupied eigenvalue over all k-points."}
{"id": "C28", "title": "Smearing functions are valid occupations", "statement": "For Fermi-Dirac and Gaussian smearing, the occupations the library assigns lie in [0,1], are non-increasing in energy, equal 1/2 at the chemical potential, satisfy occ(mu+d)+occ(mu-d)=1, equal the analytic formula within 50 widths and differ from it by at most exp(-50) / exp(-2500) beyond. Marzari-Vanderbilt (cold) smearing does not have these properties: its occupations are non-negative and decrease above mu - sqrt(2) degauss, but every level between 50 and sqrt(2) widths below mu holds more than 1, occupations increase with energy there, and the value at mu is below 1/2.", "quantifier": "every energy, chemical potential and smearing width > 0", "why_tests_cant": "continuum of inputs.", "anchors": ["src/qtm/dft/occup/smear.py: _compute_occ, fd"], "intended": "Fermi-Dirac occupations lie in [0,1], are non-increasing in energy, equal 1/2 at the chemical potential, satisfy f(x)+f(-x)=1, and the overflow clamps beyond 50 smearing widths do not break this."}
{"id": "C29", "title": "Chemical-potential bisection is sound", "statement": "If the smeared-occupation routine returns, the occupations it wrote are those of the returned Fermi level, that level lies between the lowest and highest eigenvalue, their weighted sum matches the electron count to 1e-10 and the reported correction is the weighted entropy sum. The bracket halves at each pass and always encloses the count when the initial one (lowest to highest eigenvalue) does. For Fermi-Dirac and Gaussian smearing the count is monotone in mu, lies between 0 and the capacity, and the correction is never positive; for cold smearing none of the three holds. Unknown smearing names are refused with AssertionError.", "quantifier": "every spectrum, weights, smearing and electron count, every number of iterations", "why_tests_cant": "iteration count and inputs unbounded.", "anchors": ["src/qtm/dft/occup/smear.py: compute_en"], "intended": "If the smeared-occupation routine returns, the occupations it wrote are those of the returned Fermi level and their weighted sum matches the electron count to 1e-10; during the search the bracket always contains a solution and halves; the electron count is monotone in mu."}
{"id": "C30", "title": "Chemical-potential search terminates", "statement": "For each of the three smearings the chemical-potential search terminates whenever the requested count lies between the counts at the lowest and at the highest eigenvalue (capacity below about 2.5e11 electrons). For Fermi-Dirac and Gaussian smearing it never returns when the request is outside that range by more than 1e-10; when all eigenvalues coincide it returns exactly when the request equals capacity times the smearing function at 0 within 1e-10 - so admissible counts such as 1 electron in two degenerate bands make it run forever.", "quantifier": "every spectrum and electron count below the band capacity", "why_tests_cant": "non-termination cannot be observed by a test.", "anchors": ["src/qtm/dft/occup/smear.py: compute_en"], "intended": "The smeared-occupation routine terminates for every physically admissible electron count (0 < numel < 2*numbnd)."}
{"id": "C31", "title": "Density-mixing history is a bounded ring of the latest steps", "statement": "The Broyden mixers keep at most mixdim difference pairs and, after any number of iterations, these are exactly the most recent ones, each consistent with the densities passed in.", "quantifier": "every mixdim >= 2 and every number/sequence of iterations", "why_tests_cant": "wrap-around only after many iterations.", "anchors": ["src/qtm/dft/mixing/base.py", "src/qtm/dft/mixing/modbro.py", "src/qtm/dft/mixing/genbro.py"]}
{"id": "C32", "title": "Mixing fixed point, first step and charge conservation", "statement": "The first mixing step is rho_in + beta*(rho_out-rho_in); whenever a call with rho_out = rho_in returns, it returns rho_in; if all inputs and outputs carry the same total charge (or agree in any linear functional), so does every mixed density; presenting again a pair equal to the last one makes the overlap matrix singular and the call raises. compute_error is symmetric, never negative, and zero exactly when the charge densities agree at every G except 0 and, with two spins, the spin densities agree everywhere.", "quantifier": "every history, density, beta", "why_tests_cant": "universal over histories.", "anchors": ["src/qtm/dft/mixing/modbro.py: ModBroyden.mix", "src/qtm/dft/mixing/genbro.py: GenBroyden.mix"], "intended": "The first mixing step is rho_in + beta*(rho_out-rho_in); if rho_out = rho_in the mixed density is rho_in; and if all inputs and outputs carry the same total charge, so does every mixed density."}
{"id": "C33", "title": "Mixers touch at most the caller's input density", "statement": "mix(rho_in, rho_out) never changes rho_out or any other array; the first call of either mixer and every GenBroyden call overwrite rho_in and return it; ModBroyden calls after the first change none of the caller's arrays.", "quantifier": "every call", "why_tests_cant": "aliasing through in-place operators is invisible to value-based tests.", "anchors": ["src/qtm/dft/mixing/modbro.py", "src/qtm/dft/mixing/genbro.py"], "intended": "mix(rho_in, rho_out) leaves its arguments unchanged."}
{"id": "C34", "title": "Configuration setters validate and store", "statement": "Assigning an allowed value to a configuration property makes later reads return it and changes no other property, through every history of assignments; assigning a disallowed one raises and leaves the state unchanged; davidson_numwork and mixing_method are exceptions: they accept any allowed value and never store it. Before any assignment every property reads its documented default. A refused value raises ValueError for the FFT options, AttributeError for the read-only backend list, ImportError for PRIMME without the package, and TypeError otherwise.", "quantifier": "every property and every sequence of assignments", "why_tests_cant": "history over all properties.", "anchors": ["src/qtm/config.py: QTMConfig", "src/qtm/dft/config.py: DFTConfig"], "intended": "Assigning an allowed value to a configuration property makes later reads return it; assigning a disallowed one raises and leaves the state unchanged."}
{"id": "C35", "title": "SCF driver stops correctly and reports truthfully", "statement": "The SCF loop performs at most maxiter iterations, reports convergence iff the last density error is below the threshold and returns the density that passed the test, and only mixes when not converged. The diagonalisation threshold follows an exact rule (C35_threshold_rule): it is non-increasing and at least the floor whenever the initial threshold and conv_thr/(10 numel) are at least the floor; otherwise it can fall below the floor after the first iteration or rise to it.", "quantifier": "every sequence of error values produced by the physics", "why_tests_cant": "any history of errors.", "anchors": ["src/qtm/dft/scf.py: scf"], "intended": "The SCF loop performs at most maxiter iterations, reports convergence iff the last density error is below the threshold, only mixes when not converged, and tightens the diagonalisation threshold monotonically but never below its floor."}
{"id": "C36", "title": "Ranks of a band group execute the same collectives", "statement": "All ranks of a k-group call the same sequence of collectives when accumulating the density whenever there are at least as many bands as band groups, and the reduced density is then the complete sum over bands; with fewer bands than band groups the sequences differ and the run deadlocks.", "quantifier": "every number of bands and band-group size", "why_tests_cant": "deadlock only for more ranks than bands.", "anchors": ["src/qtm/dft/scf.py: update_rho_out"], "intended": "All ranks of a k-group call the same sequence of collectives when accumulating the density, whatever the band distribution."}
{"id": "C37", "title": "Davidson search space stays within its workspace", "statement": "During the Davidson iteration the basis dimension always satisfies numeig <= ndim <= numwork*numeig, every write lands in allocated space, expansion vectors are exactly the unconverged roots, and the routine stops after at most maxiter iterations.", "quantifier": "every convergence pattern over iterations", "why_tests_cant": "convergence histories are unbounded.", "anchors": ["src/qtm/dft/eigsolve/davidson.py: solve"]}
{"id": "C38", "title": "Eigenvectors returned correspond to the eigenvalues returned", "statement": "When the Davidson solver converges, the wavefunctions stored are orthonormal Ritz vectors for the eigenvalues stored, which are ascending. However it stops, the values are upper bounds of the exact eigenvalues and never increase; on the maxiter exit the vectors stored are those of the last restart (or the untouched start), whose Ritz values are at or above the values returned and can differ from them.", "quantifier": "every exit path including iteration exhaustion", "why_tests_cant": "depends on exit path.", "anchors": ["src/qtm/dft/eigsolve/davidson.py: solve"], "intended": "When the Davidson solver returns, the wavefunctions stored are the Ritz vectors for the eigenvalues stored."}
{"id": "C39", "title": "Timers refine a simple stopwatch map", "statement": "For every sequence of start/stop/reset/delete operations with labels of at most 30 characters and at most 500 distinct names, the timer table has unique labels, counts calls, accumulates exactly the elapsed time between matching start/stop, refuses double starts and unmatched stops, and leaves other timers unaffected; when 500 timers exist, starting another label raises IndexError and changes nothing.", "quantifier": "every operation history and clock reading", "why_tests_cant": "histories are unbounded.", "anchors": ["src/qtm/logger.py: QTMTimer"], "intended": "For every sequence of start/stop/reset/delete operations the timer table has unique labels, counts calls, accumulates exactly the elapsed time between matching start/stop, refuses double starts and unmatched stops, and leaves other timers unaffected."}
{"id": "C40", "title": "A label accepted by start can be stopped exactly when it has at most 30 characters", "statement": "In every reachable table a started timer with a label of at most 30 characters can be stopped with the same label; every longer label is accepted by start but stop raises ValueError, before and after. Two starts of such a label make its 30-character beginning unusable: every later call with it raises RuntimeError (the same holds for counters).", "quantifier": "every label string", "why_tests_cant": "only labels longer than the fixed-width field misbehave.", "anchors": ["src/qtm/logger.py: QTMTimer._start_timer, TIMER_TYPE"], "intended": "A timer that has been started with a label can be stopped with the same label."}
{"id": "C41", "title": "QE lattice generation yields the documented cell", "statement": "For each ibrav of the manual except 14, ibrav2latvec yields a primitive basis of the documented lattice: lengths, angles and volume determined by celldm, right-handed; for ibrav 14 the first two axes and all three dot products are right, and the third axis has the documented length iff cos(ab)^2 = cos(bc)^2; unknown ibrav or missing parameters raise; every input with traditional constants A, B, C instead of celldm raises KeyError.", "quantifier": "every ibrav and admissible celldm", "why_tests_cant": "continuum of cell parameters.", "anchors": ["src/qtm/interfaces/qe/ibrav2latvec.py"], "intended": "For each ibrav, ibrav2latvec yields axes whose lengths, angles and volume are those determined by celldm (a, b/a, c/a, cosines)."}
{"id": "C42", "title": "Taylor propagator is the truncated exponential", "statement": "For spin-unpolarised calculations the TDDFT Taylor propagator applied to psi is sum_{n<=order} (-i dt H)^n/n! psi for any linear H and every positive order, independently of stale buffers; for every spin-polarised calculation it raises, and for every noncollinear one it leaves the wavefunctions unchanged.", "quantifier": "every order, H and psi", "why_tests_cant": "universal over order.", "anchors": ["src/qtm/tddft_gamma/expoper/taylor.py"], "intended": "The TDDFT Taylor propagator applied to psi is sum_{n<=order} (-i dt H)^n/n! psi for any linear H, for every order, and does not depend on stale buffers."}
{"id": "C43", "title": "Non-local projector ordering enumerates all (l,m)", "statement": "For a pseudopotential with projectors l_1..l_n the list of beta functions has sum(2 l_i + 1) entries, enumerates m=-l..l exactly once each, and D_ij couples only projectors of equal (l,m) with the pseudopotential's coefficient.", "quantifier": "every list of projector angular momenta", "why_tests_cant": "universal over lists.", "anchors": ["src/qtm/pseudo/nloc.py: NonlocGenerator"]}
{"id": "C44", "title": "Radial interpolation is exact for cubics", "statement": "The 4-point interpolation of tabulated projectors reproduces any cubic polynomial exactly and its weights sum to one for every query point inside the table.", "quantifier": "every q inside the table, every spacing", "why_tests_cant": "continuum.", "anchors": ["src/qtm/pseudo/nloc.py: gen_vkb"]}
{"id": "C45", "title": "Complex data files round-trip", "statement": "Complex coefficients stored as interleaved real/imaginary pairs or as (re, im) pairs are recovered exactly; init_from_hdf5 assigns them to the right G-vectors in any file order and normalises them, and reports unknown vectors; addressed reads return the raw reals; parse_wfns returns i times the conjugate of what was stored; a repeated Miller index leaves some coefficients at their previous values.", "quantifier": "every array shape and content", "why_tests_cant": "re/im swap is invisible for real data.", "anchors": ["src/qtm/dft/kswfn.py: f8_to_c16_interleaved", "src/qtm/interfaces/bgw/h5_utils.py: cplx_to_real, real_to_cplx, parse_wfns"], "intended": "Complex coefficients stored as interleaved real/imaginary pairs are recovered exactly (QE hdf5 and BerkeleyGW layouts)."}
{"id": "C46", "title": "Hamiltonian application is linear and Hermitian", "statement": "For collinear calculations KSHam.h_psi is linear in psi, equals the dense Hamiltonian matrix, and <phi|H psi> = <H phi|psi> with real expectation values, for real local potential, real kinetic energies and Hermitian D matrix; for noncollinear wavefunctions it raises TypeError on every input.", "quantifier": "every pair of wavefunctions, potential, projectors", "why_tests_cant": "algebraic law.", "anchors": ["src/qtm/dft/ksham.py: KSHam.h_psi"], "intended": "KSHam.h_psi is linear in psi and <phi|H psi> = <H phi|psi> for real local potential, real kinetic energies and Hermitian D matrix."}
{"id": "C47", "title": "RPA polarizability is Hermitian negative semi-definite and both code paths agree", "statement": "The polarizability is Hermitian and -chi positive semi-definite by either route; both routes give the same outcome (matrix, nan or error) whenever the k-points are pairwise more than 4e-5 apart in some coordinate, and can differ for repeated k-points; the symmetrised dielectric matrix is >= 1 and its inverse lies in (0,1].", "quantifier": "every set of matrix elements", "why_tests_cant": "algebraic law over arbitrary sizes.", "anchors": ["src/qtm/gw/epsilon.py: polarizability, polarizability_active"], "intended": "polarizability(M) equals polarizability_active; the matrix is Hermitian and -chi is positive semi-definite."}
{"id": "C48", "title": "BerkeleyGW ordering of G-vectors is a deterministic total order", "statement": "sort_cryst_like_BGW returns a permutation sorted by (rounded key, x, y, z); the result does not depend on the input order of distinct vectors; reorder_2d_matrix_sorted_gvecs conjugates the matrix by that permutation.", "quantifier": "every list of G-vectors and keys", "why_tests_cant": "universal over lists.", "anchors": ["src/qtm/gw/core.py: sort_cryst_like_BGW, reorder_2d_matrix_sorted_gvecs"]}
{"id": "C49", "title": "Hartree term is the Coulomb energy", "statement": "The Hartree potential has zero average, is linear in the density, and the Hartree energy is non-negative, quadratic, and equal to half the density-potential overlap.", "quantifier": "every density and G-space", "why_tests_cant": "algebraic law.", "anchors": ["src/qtm/pot/hartree.py: compute"]}
{"id": "C50", "title": "Communicator context managers keep ranks in step", "statement": "Inside `with comm:` only member ranks run the body, non-members skip without error, genuine exceptions propagate, and members synchronise at entry and exit.", "quantifier": "every body outcome and membership", "why_tests_cant": "schedules are unbounded.", "anchors": ["src/qtm/mpi/comm.py: QTMComm"]}
{"id": "C51", "title": "QE input parser maps namelist text to typed values", "statement": "For every namelist text of the grammar (integers, Fortran reals, quoted strings, indexed keys, comment lines, blanks, any letter case) each field holds the value of its last assignment or its default, strings being lowercased; integers and reals are accepted exactly on their languages; cards are read row by row; unknown keys, malformed values and missing required fields are rejected. Fortran logicals (.true./.false.), strings with commas, d exponents in cards, comments after numbers and blank lines inside a namelist are rejected too.", "quantifier": "every namelist text in the grammar", "why_tests_cant": "unbounded input language.", "anchors": ["src/qtm/interfaces/qe/read_inp.py"], "intended": "Namelist assignments written by the user (integers, Fortran reals, logicals, quoted strings, indexed keys) are read back as the same values; unknown keys and malformed values are rejected."}
{"id": "C52", "title": "Umklapp folding brings k+q into the first cell", "statement": "The umklapp vector is integral, the folded component lies in [-5e-6, 1-5e-6] (so exactly [0,1) is not guaranteed), G-vectors are shifted so that the momentum transfer is unchanged, and on a full mesh listed in the unit cell every k+q has exactly one partner; for lists wrapped to [-1/2,1/2) partners can be missed.", "quantifier": "every k, q on the mesh", "why_tests_cant": "boundary cases at integers.", "anchors": ["src/qtm/gw/epsilon.py: matrix_elements"], "intended": "The umklapp vector is integral, k+q+umklapp lies in [0,1) per component, and G-vectors are shifted consistently so that the momentum transfer is unchanged."}
{"id": "C53", "title": "Mesh coordinates are wrapped around the requested origin", "statement": "With an array as origin get_mesh_coords returns, for every grid point, a point congruent to i/N modulo the lattice and within half a cell of the origin along each axis; with a tuple as origin, the documented default, it always raises AttributeError.", "quantifier": "every lattice, grid shape and origin", "why_tests_cant": "ties at half cell and arbitrary real origins", "anchors": ["src/qtm/lattice.py: RealLattice.get_mesh_coords"], "intended": "get_mesh_coords returns, for every grid point, a point congruent to i/N modulo the lattice and within half a cell of the origin along each axis."}
{"id": "C54", "title": "Parseval on the grid", "statement": "The squared modulus of a field summed over the grid equals the squared norm of its plane-wave coefficients times 1/N for GSpace fields and times N for wavefunctions.", "quantifier": "every grid, G-list, coefficient vector and FFT-object history", "why_tests_cant": "universal over sizes and data", "anchors": ["src/qtm/fft/full.py: FFT3DFull.g2r", "src/qtm/containers/wavefun.py: WavefunRType.get_density"]}
{"id": "C55", "title": "k_tpiba of a KList is not k_cart / tpiba", "statement": "KList.k_tpiba raises AssertionError unless the list has exactly three points; then the i-th returned vector is the combination of the three points with the i-th Cartesian components of the lattice axes as coefficients, divided by tpiba, which is not k_cart / tpiba in general.", "quantifier": "all lattices, all k-lists of any length", "why_tests_cant": "The attribute depends on the list length: it only evaluates for one length, and gives wrong values there unless the data are symmetric.", "anchors": ["src/qtm/kpts.py: KList.k_cart, KList.k_tpiba", "src/qtm/lattice.py: cryst2cart, cryst2tpiba"], "intended": "For every k-list, k_tpiba returns the listed points in units of tpiba, i.e. k_cart / tpiba."}
{"id": "C56", "title": "Timing decorators are transparent", "statement": "A function decorated with qtmlogger.time(label) and not re-entered under the same label returns or raises exactly what the undecorated function does, its timer is stopped on every exit path, each execution counts one call, and nested decorated calls with different labels do not disturb each other; a decorated function that re-enters its own label raises ValueError.", "quantifier": "every nesting of decorated calls, every exception path, every clock reading", "why_tests_cant": "arbitrary nesting and exception paths; recursion under one label is the corner case.", "anchors": ["src/qtm/logger.py: QTMTimer.time, _start_timer, _stop_timer"], "intended": "A function decorated with qtmlogger.time(label) returns or raises exactly what the undecorated function does, its timer is stopped on every exit path, and each execution counts one call; nested decorated calls with different labels do not disturb each other."}
{"id": "C57", "title": "Broyden mixing extrapolates along the stored steps with the least residual; both mixers agree", "statement": "Every mix call after the first returns x + beta*r where x and r are the input density and its residual extrapolated with the same real coefficients along the latest (at most mixdim) steps, and those coefficients minimise the norm of r; ModBroyden and GenBroyden return the same density when fed the same densities.", "quantifier": "every history of calls, mixdim >= 2, beta, grid, both mixers, every exact matrix inverse", "why_tests_cant": "optimality over all coefficient choices and agreement over all histories cannot be sampled.", "anchors": ["src/qtm/dft/mixing/modbro.py: ModBroyden._mix", "src/qtm/dft/mixing/genbro.py: GenBroyden._mix", "src/qtm/dft/mixing/base.py: MixModBase._dot"]}
{"id": "C58", "title": "Every image rank receives the mixed density", "statement": "mix called by all ranks of the inter-image group returns the same density on every rank and leaves the other ranks' buffers unchanged whenever the root's mixer returns; when it raises, the other ranks stay blocked in the broadcast.", "quantifier": "every group size, state and argument contents", "why_tests_cant": "needs all rank counts and the error path in which only the root raises.", "anchors": ["src/qtm/dft/mixing/base.py: MixModBase.mix"], "intended": "mix called by all ranks of the inter-image group returns the same density on every rank and leaves the other ranks' buffers unchanged."}
{"id": "C59", "title": "The Davidson preconditioner and the diagonal of the Hamiltonian", "statement": "The diagonal that davidson.solve divides residuals by (through a function that stays above 1) is <g|H|g> of the operator KSHam.h_psi applies if vloc_g0 is the grid sum of the rescaled potential; with the vloc_g0 that the SCF driver passes it differs from <g|H|g> for every plane wave on every grid of more than one point unless the mean potential vanishes. The divisor is (1 + x + sqrt(1 + (x-1)^2))/2 with x = 2(h - e), and grows with the diagonal element.", "quantifier": "every Hamiltonian, basis vector and grid", "why_tests_cant": "the preconditioner only changes the rate of convergence, so no test result depends on it visibly.", "anchors": ["src/qtm/dft/eigsolve/davidson.py: solve", "src/qtm/dft/scf.py: compute_vloc, scf"], "intended": "The diagonal that davidson.solve divides residuals by is the diagonal <g|H|g> of the operator KSHam.h_psi applies, for the vloc_g0 that the SCF driver passes."}
{"id": "C60", "title": "Davidson never returns from a start that is already converged", "statement": "davidson.solve called with orthonormal wavefunctions that are exact eigenvectors of the Hamiltonian raises instead of returning, for every Hamiltonian, number of states, threshold and eigensolver obeying its contract.", "quantifier": "every Hamiltonian and every set of exact orthonormal eigenvectors", "why_tests_cant": "tests start from random vectors, whose residuals are never exactly zero.", "anchors": ["src/qtm/dft/eigsolve/davidson.py: solve, expand_psi", "src/qtm/containers/wavefun.py: WavefunGType.normalize"], "intended": "davidson.solve called with wavefunctions that are exact eigenvectors of the Hamiltonian returns them with their eigenvalues."}
{"id": "C61", "title": "The density of a set of orbitals integrates to their occupations", "statement": "KSWfn.compute_rho with a slice of bands normalises the selected orbitals and returns sum_b occ_b |phi_b(r)|^2 / volume: real, non-negative for non-negative occupations, integrating over the cell to the sum of the selected occupations, whatever the norms of the stored orbitals; with a list of band numbers the stored orbitals are not normalised and the integral is the sum of occ_b times the squared norms; an empty selection raises.", "quantifier": "every set of orbitals, occupations, band selection, grid and FFT history", "why_tests_cant": "must hold for every G-space, band count and band norm; normalisation through a view or a copy depends on how bands are indexed", "anchors": ["src/qtm/dft/kswfn.py: compute_rho", "src/qtm/containers/wavefun.py: normalize, get_density"], "intended": "KSWfn.compute_rho normalises the selected orbitals and returns sum_b occ_b |phi_b(r)|^2 / volume: real, non-negative for non-negative occupations, and integrating over the cell to the sum of the selected occupations, whatever the norms of the stored orbitals and however the bands are selected."}
{"id": "C62", "title": "One propagation step advances the orbitals by exactly one time step", "statement": "With the Taylor operator an ETRS step leaves in the caller's wavefunction object the orbitals at time t propagated once by the time step with the Hamiltonian of the averaged density, the predictor leaving no other trace; with the split operator the step advances the orbitals by two time steps and leaves the caller's object behind.", "quantifier": "every initial state, density functional and potential callback, time step and order", "why_tests_cant": "the dependence of the result on object aliasing must be excluded for every state", "anchors": ["src/qtm/tddft_gamma/prop/etrs.py: prop_step", "src/qtm/tddft_gamma/expoper/taylor.py: prop_psi", "src/qtm/tddft_gamma/expoper/splitoper.py: prop_psi"], "intended": "An ETRS step leaves in the caller's wavefunction object the orbitals at time t propagated once by the time step with the Hamiltonian of the averaged density; the predictor leaves no other trace. This must hold for both exponential operators."}
{"id": "C63", "title": "Gradient and divergence of periodic fields", "statement": "fieldg_grad returns the Fourier coefficients of the partial derivatives of a field of any shape, fieldg_div with the default axis contracts a vector field with iG, and div grad is the Laplacian; with axis=0 on a vector field the result is summed over plane waves instead of components, and with axis=-2 the components are paired with the wrong axis.", "quantifier": "every G-space, field shape, axis and coefficient array", "why_tests_cant": "universal over shapes and axes; errors on non-default axes are invisible on scalar fields.", "anchors": ["src/qtm/pot/utils.py: fieldg_grad, fieldg_div"], "intended": "fieldg_grad returns the Fourier coefficients of the partial derivatives of a field of any shape, fieldg_div contracts a vector field with iG along the requested axis, and div grad is the Laplacian."}
{"id": "C64", "title": "Ewald energy is a function of the crystal", "statement": "The Ewald energy is the textbook double sum with one screening parameter (the largest of 2.8, 2.7, ..., 0.1 meeting the error bound) over an explicit box of periodic images; it is unchanged by a rigid translation of all atoms and by reordering atoms or species. In axis-aligned cells with atoms at most one cell apart every image closer than the real-space cutoff is in the box; in skewed cells, or for equivalent positions in other cells, images are missed and the energy changes.", "quantifier": "every crystal, G-space and cutoff", "why_tests_cant": "universal over structures; missing images only matter in skewed or unusual cells.", "anchors": ["src/qtm/pot/ewald.py: compute"], "intended": "The Ewald energy is the textbook double sum with one screening parameter; it is unchanged by a rigid translation of all atoms, by reordering atoms or species, and every periodic image closer than the real-space cutoff is counted."}
{"id": "C65", "title": "Local pseudopotential and atomic density superposition", "statement": "On meshes with an odd number of points the Fourier coefficients produced from radial pseudopotential data are the structure factor times the Simpson radial transform, the first mesh value being counted with twice its weight (so plain Simpson, agreeing at G=0 with the reference rule, when that value vanishes); the superposed atomic density integrates to the number of atoms times the radial charge, is real, is translated with the atoms and does not depend on their order. On even meshes the transform at G=0 disagrees with the reference Simpson rule, and core correction always raises ValueError (unless the basis has exactly two vectors).", "quantifier": "every radial mesh, radial function, species and G-space", "why_tests_cant": "universal over meshes and structures; quadrature weights and G=0 handling only show on particular inputs.", "anchors": ["src/qtm/pseudo/loc.py: _simpson_old, _sph2pw, loc_generate_rhoatomic, loc_generate_pot_rhocore"], "intended": "The Fourier coefficients produced from radial pseudopotential data are the structure factor times the Simpson radial transform; the superposed atomic density integrates to the number of atoms times the radial charge, is real, is translated with the atoms and does not depend on their order; pseudopotentials with core correction are supported."}
{"id": "C66", "title": "Exchange-correlation energy and potential", "statement": "xc.compute returns the sum over the two functionals of the integral of density times energy density and the potential, which is the functional derivative of that energy (LDA and GGA, one and two spins, no core), independently of the order of the functionals; for LDA the core density has no effect at all; one LDA with one GGA functional always raises KeyError; malformed inputs are rejected. A list of functional names is accepted exactly when libxc offers all of them.", "quantifier": "every density, core density and functional", "why_tests_cant": "libxc results are arbitrary functions; the wiring must be right for all of them.", "anchors": ["src/qtm/pot/xc.py: compute, _get_sigma"], "intended": "xc.compute returns the sum over the two functionals of the integral of density times energy density and the functional derivative potential, evaluated on valence plus core density (non-linear core correction)."}
{"id": "C67", "title": "Parsing one QE input does not influence the next", "statement": "In one process, the lattice obtained from a pw.x input stating its own celldm does not depend on what was parsed before; an input that omits celldm picks up the values left by earlier inputs, so that it can succeed with another file's lattice parameter where alone it raises KeyError.", "quantifier": "every history of parsed inputs", "why_tests_cant": "depends on the history of the process; each file alone behaves.", "anchors": ["src/qtm/interfaces/qe/read_inp.py: System.celldm default", "src/qtm/interfaces/qe/parse_inp.py: parse_inp"], "intended": "In one process, the lattice obtained from a pw.x input file depends only on that file: inputs stating their own celldm are independent of everything parsed before; an input that omits celldm must not pick up values left by an earlier input."}
{"id": "C68", "title": "FFT grid chosen for a QE input fits the density cutoff", "statement": "Each dimension chosen by the QE front end is the least product of 2, 3, 5 not below 2|a_i|sqrt(2 ecutwfc)/pi; every plane wave with kinetic energy at most 4 ecutwfc has indices at most half the dimension, and lies on the grid unless some index equals exactly half the dimension, in which case it is lost (its opposite is kept).", "quantifier": "every lattice, every cutoff", "why_tests_cant": "continuum; fails only on exact boundaries.", "anchors": ["src/qtm/interfaces/qe/parse_inp.py: gen_grid_shape"], "intended": "Each dimension chosen by the QE front end is the least product of 2, 3, 5 not below 2|a_i|sqrt(2 ecutwfc)/pi, and every plane wave with kinetic energy at most 4 ecutwfc lies on the grid."}
{"id": "C69", "title": "Radial transforms of the projectors are spherical Bessel transforms", "statement": "On every ascending mesh of non-negative arguments and every order l <= 6 the tabulated Bessel factor equals the spherical Bessel function, up to the first dropped series term below the switch-over; orders above 6 give no array; the radial integral is exact for integrands cubic in the mesh index on odd meshes, and on even meshes silently leaves out the last interval. The tabulated value of a projector at wave number q is that quadrature of r * (r beta) * j_l(qr), and the radial factor used for a plane wave is 4 pi / sqrt(V) times the quadrature at its length, up to a fourth-order interpolation error.", "quantifier": "every order, every ascending list of arguments, every mesh length", "why_tests_cant": "continuum of arguments; switch-over depends on the order.", "anchors": ["src/qtm/pseudo/nloc.py: spherical_jn, small_x_thr_fn, semifact, simpson"], "intended": "On every ascending mesh of non-negative arguments and every order l <= 6 the tabulated Bessel factor equals the spherical Bessel function, up to the first dropped series term below the switch-over; orders above 6 give no array; the radial integral is exact for integrands cubic in the mesh index on odd meshes, and on even meshes silently leaves out the last interval."}
{"id": "C70", "title": "Overlap between k-points is the shifted inner product", "statement": "overlap(bra, ket, umklapp) of two sets of states equals the sum over plane waves G of conj(bra_G) ket_(G - umklapp), whenever the grid is large enough that the shifted basis is not folded onto itself, and exchanging bra and ket and reversing the shift conjugates it; on smaller grids different plane waves are identified and the result can be wrong.", "quantifier": "every pair of bases, coefficients, shifts", "why_tests_cant": "depends on collisions of an integer hash for every basis.", "anchors": ["src/qtm/dft/kswfn.py: KSWfn.overlap, gcryst2int"], "intended": "overlap(bra, ket, umklapp) of two sets of states equals the sum over plane waves G of conj(bra_G) ket_(G - umklapp), whenever the grid is large enough that the shifted basis is not folded onto itself; exchanging bra and ket and reversing the shift conjugates it."}
{"id": "C71", "title": "Closed-form Coulomb averages and their distribution over processes", "statement": "v_minibz_sphere equals the average of 8 pi/q^2 over the ball whose volume is one q-cell; oneoverq_minibz_sphere the average of 8 pi/q over it; v_minibz_sphere_shifted the average of 8 pi/|q|^2 over a ball whose centre is at a distance larger than the radius; and calculate_vcoul returns the same list for every number of processes.", "quantifier": "every cell volume, number of q-points, distance, number of processes", "why_tests_cant": "integral identities for all real parameters and all process counts.", "anchors": ["src/qtm/gw/vcoul.py: v_minibz_sphere, v_minibz_sphere_shifted, oneoverq_minibz_sphere, calculate_vcoul"]}
{"id": "C72", "title": "fixwings changes head and wings only, and consistently", "statement": "fixwings leaves the body of the inverse dielectric matrix unchanged; at q0 it sets the head to wcoul0/vcoul and the wings to zero; at other q-points the wings are multiplied by a stated factor, which is 1 with bare averages when |q| is the shortest |q+G| and otherwise uses the Coulomb factor of the first sorted vector; the q0 index is the first flagged (or shortest) q-point.", "quantifier": "every matrix, index of G=0 and Coulomb values", "why_tests_cant": "entrywise law for all sizes and parameters.", "anchors": ["src/qtm/gw/vcoul.py: fixwings, calculate_fixedeps", "src/qtm/gw/core.py: QPoints.index_q0"], "intended": "fixwings leaves the body of the inverse dielectric matrix unchanged; at q0 it sets the head to wcoul0/vcoul and the wings to zero; at other q-points with bare averages it is the identity; the q0 index is the first flagged (or shortest) q-point."}
{"id": "C73", "title": "UPF pseudopotential files are read faithfully", "statement": "Reading a well-formed UPF v2 file with at least one projector returns, for every header field, the value its attribute denotes (text, decimal integer, decimal number, T/F flag); radial mesh, weights, atomic density and projectors are the listed numbers in file order; local potential and D matrix are the listed numbers converted from Rydberg to Hartree; the D matrix is square of the size of the projector list, row major; the core charge is read exactly when the flag is T; the valence is the nearest integer to z_valence. A file with number_of_proj = 0 is never read; '.true.' is read as false, a missing attribute leaves a type object in the field, and the header's projector count is not compared with the projectors found.", "quantifier": "every UPF tree, number of projectors, mesh size and number spelling", "why_tests_cant": "must hold for all texts and all file shapes; silent misreadings only show on unusual files.", "anchors": ["src/qtm/pseudo/upf.py: UPFv2Data.from_file", "src/qtm/constants.py: RYDBERG"], "intended": "Reading a well-formed UPF v2 file returns, for every header field, the value its attribute denotes (text, decimal integer, decimal number, T/F flag); radial mesh, weights, atomic density and projectors are the listed numbers in file order; local potential and D matrix are the listed numbers converted from Rydberg to Hartree; the D matrix is square of the size of the projector list, row major; the core charge is read exactly when the flag is T; the valence is the nearest integer to z_valence."}
{"id": "C74", "title": "A pw.x input becomes the calculation it describes", "statement": "When the QE front end accepts an input, every species has its mass, its pseudopotential and exactly the atoms listed under its label, in order, at the stated positions (crystal, alat, bohr or angstrom); the electron count is the sum over atoms; the lattice is the one stated; ecutrho is 4 ecutwfc; the bands hold the electrons; smearing method, magnetisation (limited to [-1,1]) and the Monkhorst-Pack mesh are the requested ones; every input meeting the stated conditions is accepted. Accepted inputs always have an automatic mesh, no input_dft, no if_pos flags and no unused species; with fixed occupations nbnd is ignored; an unknown verbosity raises AttributeError. An unknown unit of the positions is refused with ValueError.", "quantifier": "every input, number of species, atoms and unit option", "why_tests_cant": "quantifies over all inputs; silent replacement of values only appears for particular combinations.", "anchors": ["src/qtm/interfaces/qe/parse_inp.py: parse_inp", "src/qtm/crystal/basis_atoms.py: BasisAtoms"], "intended": "When the QE front end accepts an input, every species has its mass, its pseudopotential and exactly the atoms listed under its label, in order, at the stated positions (crystal, alat, bohr or angstrom); the electron count is the sum over atoms; the lattice is the one stated; ecutrho is 4 ecutwfc; the bands hold the electrons; smearing method, magnetisation (limited to [-1,1]) and the Monkhorst-Pack mesh are the requested ones; and every input meeting the documented conditions is accepted."}
{"id": "C75", "title": "BerkeleyGW input files are read as written", "statement": "Epsinp.from_epsilon_inp and Sigmainp.from_sigma_inp, on any file made of parameter lines (keyword, JSON number, further words), one-word option lines, blank lines and begin/end lists of points, give every documented parameter the last value written (integers stay integers, decimals get their exact value) and its default if absent, and the points and q0 flags in file order; sigma.inp options that are listed are True and a sigma.inp is accepted exactly if it gives band_index_min, band_index_max and at least one k-point; unknown keywords are ignored. A parameter value that is not a JSON number raises ValueError, a missing end raises StopIteration and a blank line in a list raises IndexError. Findings: epsilon.inp options are never applied; the scale factor of a point is ignored and q0 flag 2 is not distinguished from 1. Attribute names of an accepted file are identifiers (a letter, then letters, digits, underscores; no keyword); another name raises ValueError.", "quantifier": "all files built from such items, any spacing, any number of repetitions and any order, all numbers", "why_tests_cant": "input files are arbitrary text", "anchors": ["src/qtm/interfaces/bgw/inp.py:read_epsilon_inp", "src/qtm/interfaces/bgw/inp.py:read_sigma_inp", "src/qtm/interfaces/bgw/epsinp.py:Epsinp.from_epsilon_inp", "src/qtm/interfaces/bgw/sigmainp.py:Sigmainp.from_sigma_inp"], "intended": "Epsinp.from_epsilon_inp and Sigmainp.from_sigma_inp, on any file made of parameter lines (keyword, JSON number, further words), one-word option lines, blank lines and begin/end lists of points, give every documented parameter the last value written (integers stay integers, decimals get their exact value) and its default if absent, and the points and q0 flags in file order; sigma.inp options that are listed are True and a sigma.inp is accepted exactly if it gives band_index_min, band_index_max and at least one k-point; unknown keywords are ignored. A parameter value that is not a JSON number raises ValueError, a missing end raises StopIteration and a blank line in a list raises IndexError. Findings: epsilon.inp options are never applied; the scale factor of a point is ignored and q0 flag 2 is not distinguished from 1."}
{"id": "C76", "title": "Static self-energies are schedule independent, real and have the physical signs", "statement": "The bare exchange, static screened exchange and static Coulomb-hole self-energies returned by the Sigma object do not depend on how the q-points are distributed over processes nor on the accumulation mode. Bare exchange equals minus the prefactor times the sum over q-points, occupied bands and G-vectors of the Coulomb factor times |M|^2: real, and never positive. The screened exchange and the Coulomb hole are the quadratic forms of W = v(eps^-1 - 1); for a Hermitian negative W they are real, the screened-exchange correction is not negative, the Coulomb hole is not positive, and 2 CH + SX <= 0. Every requested k-point must be distinct: later copies of a repeated k-point get zero rows; all three fail without an empty band within number_bands.", "quantifier": "all wavefunctions, occupations, k- and q-point lists, G-spheres, Coulomb factors and dielectric matrices, every number of processes and both accumulation modes", "why_tests_cant": "Tests compare one silicon run with stored numbers; the signs and independence of the distribution must hold for every system and process count.", "anchors": ["src/qtm/gw/sigma.py:Sigma.sigma_x", "src/qtm/gw/sigma.py:Sigma.sigma_sx_static", "src/qtm/gw/sigma.py:Sigma.sigma_ch_static", "src/qtm/gw/sigma.py:Sigma.matrix_elements"]}
{"id": "C77", "title": "Self-energy matrix elements conserve momentum and the -q bookkeeping is exact", "statement": "The matrix element of two bands for a transferred vector is exactly the sum over the pairs of plane waves whose difference is q + G (modulo what the FFT grid cannot resolve), umklapp included. For q-points in the unit cell whose opposite is listed, the opposite is found at its first position and both add up to a lattice vector; for complete spheres the map of G-vectors is a permutation sending G to the position of -(q+G), so the sums use the transfer -(q+G). q-points given in [-1/2,1/2) are outside this: the wrong opposite may be taken silently. The bra is taken at the first listed k-point all of whose coordinates match k+q (within 1e-8 + 1e-5 |target|), and the call fails with AssertionError exactly when there is none.", "quantifier": "all cells, k- and q-points, bands, plane-wave coefficients, grids and G-spheres", "why_tests_cant": "A wrong umklapp or G-vector map only shows for some q-points and spheres; examples cannot cover all of them.", "anchors": ["src/qtm/gw/sigma.py:Sigma.matrix_elements", "src/qtm/gw/sigma.py:Sigma.index_minusq", "src/qtm/gw/sigma.py:Sigma.map_g_to_g_minusq"], "intended": "The matrix element of two bands for a transferred vector is exactly the sum over the pairs of plane waves whose difference is q + G (modulo what the FFT grid cannot resolve), umklapp included. For q-points in the unit cell whose opposite is listed, the opposite is found at its first position and both add up to a lattice vector; for complete spheres the map of G-vectors is a permutation sending G to the position of -(q+G), so the sums use the transfer -(q+G). q-points given in [-1/2,1/2) are outside this: the wrong opposite may be taken silently."}
{"id": "C78", "title": "Plasmon-pole screening reproduces the static dielectric matrix and its formulas are consistent", "statement": "In Sigma.sigma_sx_gpp and sigma_ch_gpp every plasmon mode has a real non-negative squared frequency and, unless dropped, the strength -(eps^-1 - 1) w^2 that reproduces the static inverse dielectric matrix. Away from the pole the two algebraic forms used for a mode are the same function of the energy difference; at zero energy difference both self-energy kernels equal eps^-1 - 1, so for a symmetric W the dynamic sums reduce to the static ones. Density components are looked up correctly for distinct G-vectors inside the grid box. The results do not depend on how q-points are distributed over processes. Findings: entries that are skipped still contribute Omega^2/x^2, both kernels are set to zero exactly at a pole, G-vectors on the grid boundary are aliased to a wrong density component, and for a Hermitian W that is not symmetric the dynamic sum at zero energy differs from the static one (the matrix is transposed). The mode parameters exist exactly when the density lists every difference of two G-vectors, otherwise KeyError.", "quantifier": "all energies, plasmon frequencies, dielectric matrices, densities, G-spheres and process counts", "why_tests_cant": "The branches are selected by real inequalities on energies and frequencies; agreement of the branches and the static limit must hold on the whole continuum.", "anchors": ["src/qtm/gw/sigma.py:Sigma.sigma_sx_gpp", "src/qtm/gw/sigma.py:Sigma.sigma_ch_gpp"], "intended": "In Sigma.sigma_sx_gpp and sigma_ch_gpp every plasmon mode has a real non-negative squared frequency and, unless dropped, the strength -(eps^-1 - 1) w^2 that reproduces the static inverse dielectric matrix. Away from the pole the two algebraic forms used for a mode are the same function of the energy difference; at zero energy difference both self-energy kernels equal eps^-1 - 1, so for a symmetric W the dynamic sums reduce to the static ones. Density components are looked up correctly for distinct G-vectors inside the grid box. The results do not depend on how q-points are distributed over processes. Findings: entries that are skipped still contribute Omega^2/x^2, both kernels are set to zero exactly at a pole, G-vectors on the grid boundary are aliased to a wrong density component, and for a Hermitian W that is not symmetric the dynamic sum at zero energy differs from the static one (the matrix is transposed)."}
{"id": "C79", "title": "Quasiparticle energies solve the linearised equation and are returned under the right labels", "statement": "Sigma.calculate_gpp's Eqp1 is the unique solution of E = Emf - Vxc + Sigma(Emf) + Sigma'(E - Emf) when Sigma' differs from 1, and Eqp0 = Emf - Vxc + Sigma. The returned dictionary contains, on the printing process, one entry per k-point with the values printed in the first eight columns. The exact static Coulomb hole of the j-th band is half the prefactor times the sum over q, G, G' of the density component rho(G'-G) of that band, (eps^-1 - 1)(G',G) and v(G'), cut off at the dielectric cutoff. Findings: the primed columns and Znk of the dictionary are copies of other columns (Znk is always 1); band labels are right only when band_index_min = 1; non-printing processes raise UnboundLocalError; the exact hole always uses the lowest bands whatever band_index_min is, and is zero for k-points whose number is not below the number of q-points.", "quantifier": "all self-energies, energies, band ranges, k- and q-point lists, wavefunctions and process counts", "why_tests_cant": "The identities are over arbitrary complex values and band windows; the repository's single example uses band_index_min = 1 and one process.", "anchors": ["src/qtm/gw/sigma.py:Sigma.calculate_gpp", "src/qtm/gw/sigma.py:Sigma.sigma_ch_static_exact", "src/qtm/gw/sigma.py:Sigma.matrix_elements_sigma_exact"]}
{"id": "C80", "title": "Time-dependent dipole after a kick", "statement": "dipole_response multiplies every orbital by exp(-i kick r_a) on the real-space grid (positions measured from the charge centre of the ions, brought into the central cell), projects back on the plane waves, propagates numstep steps and returns numstep+1 rows: the zero row, then for every step n the first moment, over the grid, of the density after n steps minus the initial density, all divided by the kick (undivided for a zero kick). A zero kick starts the propagation from the unchanged density; for equal charge the dipole does not depend on the origin. A direction other than x, y, z is refused before anything is written. The partial file holds, after steps 0, 10, 20, ..., the rows before the newest; wherever the run is interrupted the file is the old one, absent, or such a prefix. The write_freq argument does not control this (0 does not stop the writing) and the file is removed before it is rewritten, so an interruption there loses it.", "quantifier": "every crystal, grid, orbitals, propagator, number of steps, kick, direction, write_freq and interruption point", "why_tests_cant": "holds for every propagator, every number of steps, every error and crash position", "anchors": ["src/qtm/tddft_gamma/optical.py:dipole_response", "src/qtm/tddft_gamma/propagate.py:propagate", "src/qtm/containers/field.py:integrate_unitcell"]}
{"id": "C81", "title": "Dipole spectrum", "statement": "dipole_spectrum returns the energies start + k step below the end (default step 2 pi / T, ZeroDivisionError when T = 0) and, for every energy E and column, the Simpson sum of -i sin(E t) damping(t) dipole(t). The damping is the polynomial 1 - 3x^2 + 2x^3 when no factor is given, whatever name is passed (1 at the start, 0 at the end, decreasing in between); with a factor it is the named one, and an unknown name or a negative factor for exp/gauss raises ValueError. The result is linear in the dipoles, purely imaginary for real dipoles and zero at E = 0.", "quantifier": "every dipole history, time step, energy range, damping name and factor, and every quadrature weight", "why_tests_cant": "identity for every history length and every argument combination", "anchors": ["src/qtm/tddft_gamma/optical.py:dipole_spectrum"]}
{"id": "C82", "title": "Occupations and smearing correction are thermodynamically consistent", "statement": "For each of the three smearings the reported correction is the one belonging to the occupations: the entropy function's slope is minus the argument times the occupation function's slope; the derivative of ((e - mu) occupation + correction) in a level's energy is its occupation; band energy of the written occupations plus the correction minus Fermi level times electrons is the grand potential at the returned Fermi level, and its derivative in the chemical potential is minus the electrons held (no level exactly 50 widths away).", "quantifier": "every smearing type, width, set of k-groups, k-points, weights and eigenvalues, every chemical potential", "why_tests_cant": "it is an identity between derivatives of two independently coded functions, summed over arbitrary spectra; a test samples a few spectra with finite differences", "anchors": ["src/qtm/dft/occup/smear.py: gauss_occ, gauss_en, fd_occ, fd_en, mv_occ, mv_en, _compute_occ, _compute_en, compute_occ"]}
{"id": "C83", "title": "The cross-process input check accepts exactly consistent inputs", "statement": "At the start of a DFT run every process of the image passes its crystal, grids and k-points through a consistency check. If process 0's arguments are sound by themselves (every species has a pseudopotential file, lattices of grids and k-points are the crystal's), a process gets through exactly when its own arguments are sound and equal to process 0's (arrays to 1e-8 + 1e-5 relative, lattice constant and cutoff to 1e-8, labels, valences, file names and checksums, masses, grid shapes exactly; same numbers of species, atoms and k-points), having then entered the same number of collective operations as process 0. Process 0 itself never objects: when another process disagrees, that process alone raises (or runs into mismatched collectives, e.g. when only one of the two was given a mass) and process 0 waits in the closing barrier forever. A species without a pseudopotential file is refused with AttributeError even in a serial run.", "quantifier": "every pair of input data sets held by process 0 and another process, any number of species, atoms, k-points", "why_tests_cant": "needs all pairs of disagreeing inputs and the collective sequences of all processes; a hanging run is not observable in a unit test", "anchors": ["src/qtm/mpi/check_args.py: check_lattice, check_basisatoms, check_crystal, check_gspace, check_kpts, check_system", "src/qtm/mpi/comm.py: QTMComm.__exit__", "src/qtm/dft/scf.py: scf"]}
{"id": "C84", "title": "Random starting wavefunctions", "statement": "KSWfn.init_random writes, for every band b and plane wave G, a coefficient modulus*exp(2 pi i phase)/(1+|k+G|^2) whose modulus and phase are taken from stated, pairwise distinct places of the generator's stream (bands in blocks of ten, moduli of a block before its phases, no number used twice); hence |c| <= 1/(1+|k+G|^2). Full blocks of ten bands do not change when more bands are requested (bands of an incomplete block do), the set of starting wavefunctions does not depend on the number of k-groups, the two spin channels of a polarised start are identical, processes that share the plane waves of one k-point repeat the same random numbers, and a noncollinear start is refused as soon as the sphere has two vectors.", "quantifier": "all streams, band counts, spheres, k-point lists, numbers of k-groups", "why_tests_cant": "a test samples one seed, one band count and one process layout; the claims are about every stream and every decomposition", "anchors": ["src/qtm/dft/kswfn.py:KSWfn.init_random", "src/qtm/dft/scf.py:scf (wfn_init)"]}
{"id": "C85", "title": "Starting density of an SCF calculation", "statement": "Without a starting density, scf starts from the superposition of the atomic densities; in a polarised calculation the two channels add up to it and differ by the superposition weighted with the starting magnetisations, clipped to [-1,1] species by species. The normalisation multiplies every coefficient by one number and makes the channels integrate to the number of electrons, so that the starting moment is that number times the charge-weighted mean of the clipped magnetisations. A list of magnetisations shorter than the list of species silently drops the remaining species; a polarised start without magnetisations raises ValueError.", "quantifier": "all G-spaces, species lists, positions, radial data, magnetisation lists, electron counts", "why_tests_cant": "holds for every crystal and every magnetisation list, including mismatched lengths", "anchors": ["src/qtm/dft/scf.py:scf (139-174, 335-336)", "src/qtm/pseudo/loc.py:loc_generate_rhoatomic"]}
{"id": "C86", "title": "Energies reported by an SCF calculation", "statement": "The band energy is the sum over all levels of weight*eigenvalue*occupation, for every division of the k-points over k-groups; total energy and Harris-Weinert-Foulkes estimate of an iteration differ by the integral of v_Hxc with the difference between input and output density, and coincide in the energies of a converged iteration, which do not depend on its output density; with a real density the converged total energy is band energy - Hartree energy + xc energy - integral of v_xc rho + Ewald energy (+ smearing term), and the internal energy is the total energy without the smearing term.", "quantifier": "all levels, groupings, potentials, densities, smearing terms", "why_tests_cant": "an identity over all densities and all process layouts; a run shows one converged number", "anchors": ["src/qtm/dft/scf.py:compute_en", "src/qtm/pot/hartree.py:compute"]}
{"id": "C87", "title": "Dielectric matrix files", "statement": "Writing a list of dielectric matrices and reading the file back returns as many matrices in the same order, each with its own size whatever the sizes of the others, and equal to the complex conjugate of the leading square block of the matrix written, provided its last row and column have an entry above 1e-8; for square matrices with a non-negligible last diagonal entry a second write and read restores the original. A matrix with complex entries is not read back as written, and a matrix whose last row is negligible comes back smaller. Writing an empty list raises ValueError, except through Epsilon.write_epsmat, which then does nothing.", "quantifier": "all lists of matrices of all sizes", "why_tests_cant": "zero-padding to a common size and removal of padding must be inverse for every combination of sizes and entries", "anchors": ["src/qtm/interfaces/bgw/epsmat_read_write.py:write_mats", "src/qtm/interfaces/bgw/epsmat_read_write.py:read_mats", "src/qtm/interfaces/bgw/epsmat_read_write.py:unpad_array", "src/qtm/gw/epsilon.py:write_epsmat"]}
{"id": "C88", "title": "Nested dictionaries in HDF5", "statement": "A nested dictionary (distinct names at each level) written to an HDF5 group and retrieved again has the same value at every path and no others; copying the header of another file reproduces it when its groups hold only datasets, and raises TypeError when a group of the header contains a further group.", "quantifier": "all nested dictionaries of any depth", "why_tests_cant": "holds for every tree of any depth and width; tests use one file layout", "anchors": ["src/qtm/interfaces/bgw/h5_utils.py:dict_to_h5", "src/qtm/interfaces/bgw/h5_utils.py:write_recursive_h5", "src/qtm/interfaces/bgw/h5_utils.py:retrieve_dict"]}
{"id": "C89", "title": "Loading BerkeleyGW wavefunction files", "statement": "For a one-spin WFN file whose plane-wave lists hold the vectors of the k-point bases in any order, wfn2py succeeds and every k-point keeps its coordinates, weight, occupations and half its Rydberg energies, and the coefficient of each band at each plane wave is the pair stored with that plane wave, with real and imaginary parts exchanged (inner products become complex conjugates). If loading succeeds at all, the file's plane waves are exactly those of the bases (Miller indices below 100000), there is one spin channel, and the weights are the stored ones divided by their sum and close to them; two-spin files always raise. Plane-wave counts and Miller indices are compared within 1e-8 + 1e-5 of the stored number, so that from 100000 on a difference of one goes unnoticed. Atoms are grouped into species of increasing atomic number, each with exactly its atoms' positions. A density plane-wave list of another length (neither length being 1) raises ValueError.", "quantifier": "all files, orderings, bases, numbers of k-points and bands, sorting algorithms for atoms", "why_tests_cant": "the index map must be right for every ordering of every plane-wave list; a wrong permutation is silent on symmetric data", "anchors": ["src/qtm/interfaces/bgw/wfn2py.py:wfn2py", "src/qtm/klist.py:KList.from_cryst"], "intended": "For a one-spin WFN file whose plane-wave lists hold the vectors of the k-point bases in any order, wfn2py succeeds and every k-point keeps its coordinates, weight, occupations and half its Rydberg energies, and the coefficient of each band at each plane wave is the pair stored with that plane wave, with real and imaginary parts exchanged (inner products become complex conjugates). If loading succeeds at all, the file's plane waves are exactly those of the bases (Miller indices below 100000), there is one spin channel, and the weights are the stored ones divided by their sum and close to them; two-spin files always raise. Atoms are grouped into species of increasing atomic number, each with exactly its atoms' positions."}
{"id": "C90", "title": "Accumulating matrix products", "statement": "The zgemm wrapper returns alpha op(A) op(B) (op none, transpose or conjugate transpose) and raises for shapes that do not fit. When an output array is given its content is converted to single precision before it is scaled by beta and added: the result is the documented alpha op(A) op(B) + beta C exactly for beta = 0 or entries that are single-precision numbers, and within |beta| (2^-23 |c| + 2^-149) otherwise. KSHam.h_psi accumulates its nonlocal terms this way, so it departs from the dense Hamiltonian by at most the sum over species of 2^-23 |value before that species| + 2^-149, is exact without species, and with a species of zero coupling returns exactly the single-precision value of the product.", "quantifier": "all matrices, shapes, transposition codes, scalars; all Hamiltonians, bases and wavefunctions", "why_tests_cant": "a loss of precision in one accumulator stays below every test tolerance; the bound must hold for all data", "anchors": ["src/qtm/containers/gemm_wrappers.py:get_zgemm", "src/qtm/dft/ksham.py:KSHam.h_psi"]}
{"id": "C91", "title": "Command line and process layout of the pw.py driver", "statement": "Running the Quantum ESPRESSO style driver: the input file is what follows the first -in (else the first argument), each count option (-nk/-npools, -nt/-ntg, -nb/-nband) is the integer after the first occurrence of its short, else long, spelling, default one, and anything that is not an integer raises ValueError. With pools times band groups dividing the processes every process gets exactly the requested layout; otherwise the driver either raises ValueError on every process or silently uses more band groups than asked for. With one process per plane-wave group, or a single group, the processes of each group together hold the whole G-sphere; with several groups of several processes each group misses part of it.", "quantifier": "every argument list, every number of processes, every rank, every G-space with at least as many sticks and planes as processes", "why_tests_cant": "layouts exist for every process count and option combination and need as many MPI processes to run; tests run serially", "anchors": ["src/qtm/interfaces/qe/pw.py:fetch_arg", "src/qtm/interfaces/qe/pw.py:fetch_arg_long_short_default", "src/qtm/dft/config.py:DFTCommMod", "src/qtm/mpi/gspace.py:DistGSpaceBase"]}
{"id": "C92", "title": "FFT libraries are interchangeable", "statement": "Whichever FFT library is selected (NumPy, SciPy, PyFFTW, mkl_fft, CuPy), and whatever was transformed before with the same object, the serial transforms return the same arrays: backward is the Fourier sum over the plane waves, divided by the number of grid points exactly when normalisation is on. Distributed transforms agree on all libraries but CuPy, whose wrapper lets the library destroy an input array that is never cleared again, so that two identical backward transforms can differ. Selecting a library by name returns its wrapper; a missing CuPy raises RuntimeError, any other unknown name and None raise TypeError.", "quantifier": "every library, grid, G-space, history of transforms, and content left behind by a library in arrays it may destroy", "why_tests_cant": "a test run has one or two of the libraries installed and cannot enumerate histories; what a library leaves in a destroyed array is unspecified", "anchors": ["src/qtm/fft/backend/__init__.py:get_FFTBackend", "src/qtm/fft/backend/numpy_.py", "src/qtm/fft/backend/scipy_.py", "src/qtm/fft/backend/pyfftw_.py", "src/qtm/fft/backend/mklfft_.py", "src/qtm/fft/backend/cupy_.py", "src/qtm/fft/full.py:FFT3DFull", "src/qtm/fft/sticks.py:FFT3DSticks", "src/qtm/mpi/gspace.py:DistGSpaceBase._g2r"]}
{"id": "C93", "title": "The library eigensolvers are handed exactly the plane-wave Hamiltonian, and what they find is what is stored", "statement": "For the scipy and primme drivers, every product the library routine asks for is the product with the plane-wave Hamiltonian matrix, whatever the FFT object was used for before and in whatever blocks the routine asks; the eigenvalues and eigenvectors it returns end up unchanged as the bands (columns become rows), and the reported count is the number of products requested. So a routine that finds the lowest eigenpairs of Hermitian matrices leaves the lowest eigenpairs of the Hamiltonian in the wavefunction, orthonormal and in ascending order. A distributed k-group, a foreign G+k space or a threshold that is not positive is refused with AssertionError (ImportError first if primme is missing) and nothing changes; if the routine fails the wavefunction is unchanged. The preconditioner passed to primme divides every coefficient by a number above 1. The accuracy requested by the caller and the previous bands have no influence at all on the scipy driver.", "quantifier": "all Hamiltonians on all grids, FFT histories, library routines (as arbitrary interactive programs), band counts, thresholds", "why_tests_cant": "A test runs one version of ARPACK or PRIMME on one crystal; the property ranges over every sequence of requests the library may make and every content of the reused transform buffers.", "anchors": ["src/qtm/dft/eigsolve/scipy_eigsh.py: solve", "src/qtm/dft/eigsolve/primme_eigsh.py: solve, preconditioner"]}
{"id": "C94", "title": "The sigma_hp.log reader returns every table of a complete file, column by column", "statement": "Reading a complete sigma_hp.log gives, for every k-point number, the k-vector and every column of the last table with that number, in row order; nothing is returned for numbers that do not occur, and lines outside the tables are stored under their first word. A file that stops inside a table (also right after its last row, without the blank line) is refused with StopIteration, a row with more words than column names with IndexError. Two things a user may not expect: the column names of the first table are used for all tables, and a second table with the same number (the other spin) replaces the first completely.", "quantifier": "all files: any number of tables, rows and columns, any lines between them, any truncation point", "why_tests_cant": "The reader is a loop over arbitrary text with four states; a sample file exercises one sequence of them.", "anchors": ["src/qtm/interfaces/bgw/sigma_hp_reader.py: read_sigma_hp"], "intended": "Reading sigma_hp.log returns the data of every table of the file."}
{"id": "C95", "title": "Exact static Coulomb hole and the static COHSEX report", "statement": "sigma_ch_static_exact gives, for every number of processes, half the prefactor times the sum over q, G, G' of the Fourier component G'-G of the level's density times (inverse dielectric matrix minus identity)(G',G) times v(q+G'), differences whose squared length exceeds the dielectric cutoff being left out; with Hermitian negative semi-definite screening and nothing cut off it is real and not positive, and it equals the band sum sigma_ch_static as soon as the bands are complete on the FFT grid, which is what the static remainder relies on. Findings: the levels are always the lowest bands, whatever band_index_min is, and k-points numbered from the number of q-points on get zero. calculate_static_cohsex returns one entry per listed k-point whose columns are Emf = energy in eV, X, SX-X, CH (exact) and CH' (band sum) rounded to 6 decimals, Sig and Sig' their unrounded sums, Eqp0 = Emf - Vxc + Sig and Eqp0' = Emf - Vxc + Sig' for the bands asked for, Eqp1 = Eqp0 and Znk = 1.", "quantifier": "all wavefunctions, grids, k- and q-lists, dielectric matrices, Coulomb factors, cutoffs and numbers of processes", "why_tests_cant": "an equality between two sums over bands, q, G and G' for every set of complete bands and every screening matrix; tests compare a few tabulated numbers with a tolerance", "anchors": ["src/qtm/gw/sigma.py:Sigma.matrix_elements_sigma_exact", "src/qtm/gw/sigma.py:Sigma.sigma_ch_static_exact", "src/qtm/gw/sigma.py:Sigma.calculate_static_cohsex"]}
{"id": "C96", "title": "Distributed containers give the serial results on every rank", "statement": "For every division of the basis among the ranks: arithmetic and in-place operators on distributed fields and wavefunctions never communicate and leave each rank with its piece of the serial result, as do reductions over leading axes; sums and products over the basis (alone or with axes before it), inner products, squared norms, unit-cell integrals and the G = 0 coefficients are on every rank those of the undivided container. Exceptions: when the axis left last has the local basis length of some rank, that rank returns an unreduced partial sum and the others wait forever; maxima, minima and matrix products over the basis never complete on several ranks; unit-cell integrals against a bare array are not summed; mixing containers of different spaces is refused with AttributeError instead of TypeError.", "quantifier": "all partitions of the basis, numbers of ranks, container shapes, values, and associative commutative operations", "why_tests_cant": "the result depends on how the basis falls on the ranks and on coincidences of axis lengths with local sizes; a test runs one partition", "anchors": ["src/qtm/mpi/containers.py: DistBufferType.__array_ufunc__, get_DistFieldG, get_DistWavefunG", "src/qtm/containers/wavefun.py: WavefunGType.vdot, norm2", "src/qtm/containers/field.py: integrate_unitcell"]}
{"id": "C97", "title": "Monte Carlo Coulomb averages are the averages they claim", "statement": "For every q-point list, cell, random stream and tie-breaking of the nearest-point search: the inscribed radius is half the length of the shortest sign-copy of a listed q-point beyond the tolerance, the neighbourhood consists of the copies within four diameters, contains zero, is closed under inversion, and the inscribed ball lies in the cell of zero; samples fill a box with the volume of a q-cell and are moved to their nearest copy; the averaged Coulomb factor at zero shift is the exact integral over the inscribed ball divided by the q-cell volume plus the mean of 8 pi/|p|^2 over the samples outside it, finite and positive; at a shift longer than the radius it is the mean of 8 pi/|p+s|^2 over as many samples as the integer nearest to N(2r/|s|)^2 clamped to 1..N_SAMPLES, and the 1/q average likewise; a sample at exactly -s makes them nan or inf. The driver evaluates these at q+G (at G alone for the q0 point). Exceptions: a list with the q0 point only is refused with ValueError, a shift between 1e-5 and the radius gives nan, and the box is a cell of an n1 x n2 x n3 grid only when n1 = n2 = n3.", "quantifier": "every reciprocal cell, q-point list, q0 position, sample count, stream of random words, nearest-point choice, shift vector and set of G-vectors", "why_tests_cant": "the averages depend on the whole sample stream, the q-grid and the shift; a test compares a few tabulated values for one grid and seed within a loose tolerance", "anchors": ["src/qtm/gw/vcoul.py: Vcoul.get_gamma_nbhd_qpts", "src/qtm/gw/vcoul.py: Vcoul.v_minibz_montecarlo_hybrid", "src/qtm/gw/vcoul.py: Vcoul.oneoverq_minibz_montecarlo", "src/qtm/gw/vcoul.py: Vcoul.calculate_vcoul_single_qpt"], "intended": "For every q-point list, cell, random stream and tie-breaking of the nearest-point search: the inscribed radius is half the length of the shortest sign-copy of a listed q-point beyond the tolerance, the neighbourhood consists of the copies within four diameters, contains zero, is closed under inversion, and the inscribed ball lies in the cell of zero; samples fill a box with the volume of a q-cell and are moved to their nearest copy; the averaged Coulomb factor at zero shift is the exact integral over the inscribed ball divided by the q-cell volume plus the mean of 8 pi/|p|^2 over the samples outside it, finite and positive; at a shift longer than the radius it is the mean of 8 pi/|p+s|^2 over as many samples as the integer nearest to N(2r/|s|)^2 clamped to 1..N_SAMPLES, and the 1/q average likewise. The driver evaluates these at q+G (at G alone for the q0 point). Exceptions: a list with the q0 point only is refused with ValueError, a shift between 1e-5 and the radius gives nan, and the box is a cell of an n1 x n2 x n3 grid only when n1 = n2 = n3."}
{"id": "C98", "title": "Plane-wave parallel Hamiltonian and density equal the serial ones", "statement": "For every G-space, lattice, k-point, local potential and set of separable projectors, every number of ranks up to the number of sticks and planes, and any earlier use of the transforms: applying the Hamiltonian on all ranks to the pieces of any wavefunctions completes and leaves on each rank its piece of what the serial Hamiltonian gives, and the density and the normalised orbitals computed by the ranks are the pieces of the serial ones; gathering restores the serial arrays exactly. Inner products of pieces sum to the serial inner products for every division of the basis.", "quantifier": "every G-space, rank count, Hamiltonian data, band set, occupation list and history of transforms", "why_tests_cant": "the division of sticks and planes, the all-to-all counts and the partial inner products differ for every combination of cell, cutoff and rank count; a test runs one small cell on a few ranks", "anchors": ["src/qtm/dft/ksham.py: KSHam.h_psi", "src/qtm/dft/kswfn.py: KSWfn.compute_rho", "src/qtm/mpi/gspace.py: DistGSpaceBase", "src/qtm/mpi/containers.py: get_DistWavefunG"]}
{"id": "C99", "title": "Batched transforms pair rows in C order and write only the output", "statement": "GSpace.r2g/g2r on arrays of any number of axes and any strides: an argument that is not an array of the backend's class raises TypeError, one without axes or with a wrong last axis raises ValueError (input examined before output), everything else succeeds. Rows (runs along the last axis) of input and output are paired in C order of the leading axes; every output row receives the Fourier sum / plane-wave projection of its partner, whatever was done with the FFT object before, rows without a partner (output longer than input) silently keep their old contents, and no other memory changes. Without an output array the result is a new C-contiguous array with the leading shape of the input. An output array whose rows are not evenly spaced in memory (e.g. a transposed view) is accepted and returned unchanged: the result is lost. Container to_r/to_g keep the shape and transform every spin block of every entry on its own; to_r followed by to_g returns the coefficients for fields and N times the coefficients for wavefunctions, and leaves the source unchanged.", "quantifier": "all grids, G-spaces, both FFT drivers with any call history, all array shapes, offsets and strides, all memory contents, all batch sizes of input and output, all numbers of spin components", "why_tests_cant": "tests transform contiguous arrays of one or two shapes; the claim is about every stride pattern, every pairing of batch shapes and the whole of memory outside the output", "anchors": ["src/qtm/gspace/base.py: GSpaceBase.r2g, g2r, _r2g, _g2r, check_array_r, check_array_g, allocate_array", "src/qtm/fft/backend/base.py: FFTBackend.check_array_type", "src/qtm/containers/field.py: FieldGType.to_r, FieldRType.to_g", "src/qtm/containers/wavefun.py: WavefunGType.to_r, WavefunRType.to_g"]}
{"id": "C100", "title": "Coulomb and Vxc tables in text form", "statement": "For every set of q-points, G-vectors and Coulomb factors (any real or not-a-number values, any selection of q-points in any order), write_vcoul produces one line per (q, G) in order, with the special q0 vector for the q0 point; when |q_i| < 9.99999999 and |G_i| < 100000 the columns are fixed, q with eight decimals and the factor as d.dddddddE+dd. load_vcoul reads such a text back row by row: G exactly, q within 5e-9, each factor within a relative 5e-8 and with its sign (not-a-number stays so); a table of fewer than two rows can be written but not read (IndexError). For any file of decimal numbers load_vcoul returns columns 1-3, 4-6 and 7 exactly, refuses rows of different lengths (ValueError) and files with fewer than two rows or seven columns (IndexError), and blank lines and # comments do not matter. read_vxc returns the k-points of a vxc.dat file in order with their coordinates and the third number of each of their band lines in order; the first blank line silently ends the file; a missing band line or a short header raises IndexError, and a line with a decimal number where the count is expected (off-diagonal lines) raises ValueError.", "quantifier": "all tables (sizes, orders, values, selections), all files of decimal numbers with any blanks and comments, all vxc.dat files of any number of k-points and bands", "why_tests_cant": "rounding, carry of the mantissa (9.99999996 -> 1.0000000E+01), exponent size and column overflow depend on every real value; a test compares a few printed tables", "anchors": ["src/qtm/gw/vcoul.py:Vcoul.write_vcoul", "src/qtm/gw/vcoul.py:Vcoul.load_vcoul", "src/qtm/interfaces/bgw/inp.py:read_vxc"]}
{"id": "C101", "title": "QTMComm without mpi4py acts like MPI in a group of one process, up to listed differences", "statement": "When mpi4py is not installed, for all buffers and objects: in-place collectives leave every array unchanged and bcast, allreduce and allgather return the object as it is (allgather in a list of one), as in a group of one process; out-of-place Scatter, Gather, Allgather and Allgatherv between buffers of equal length copy the sent array to the received one and touch nothing else when the buffer compared with IN_PLACE is a tuple, has one entry, or NumPy is older than 1.25. Incl accepts exactly the ranks [0] and Root is the communicator itself. It differs from MPI in four ways, each for all inputs: with NumPy from 1.25 on a plain array of two or more entries raises ValueError; out-of-place Allreduce never writes the receiving array; scatter never returns what MPI returns (the single entry) but the sequence itself; Split returns a null communicator, all of whose methods raise AttributeError.", "quantifier": "all array contents and lengths, all buffer forms, all objects, both NumPy comparison rules", "why_tests_cant": "the fallback replaces MPI for every buffer form and length; tests run single calls, and whether an array can be compared with the IN_PLACE text depends on its length and the NumPy release", "anchors": ["src/qtm/mpi/comm.py:QTMComm.Scatter", "src/qtm/mpi/comm.py:QTMComm.Gather", "src/qtm/mpi/comm.py:QTMComm.Allgather", "src/qtm/mpi/comm.py:QTMComm.Allgatherv", "src/qtm/mpi/comm.py:QTMComm.Allreduce", "src/qtm/mpi/comm.py:QTMComm.scatter", "src/qtm/mpi/comm.py:QTMComm.Split", "src/qtm/mpi/comm.py:QTMComm.Incl"]}
{"id": "C102", "title": "Atoms given in bohr, angstrom, alat or crystal units are put where the numbers say", "statement": "For every lattice and every non-empty list of coordinate triples, BasisAtoms.from_cart, from_bohr, from_angstrom, from_alat and from_cryst accept them (with a usable pseudopotential argument and mass) and the atoms' Cartesian positions are, in order, exactly the given points: the numbers as they are, times one angstrom in bohr, times alat, or as coefficients of the lattice vectors; r_alat times alat equals r_cart. The arguments accepted are exactly: pseudopotential file, int or None; mass None or a non-negative float; at least one position; three coordinates each - or, in every form except crystal coordinates, one coordinate each, which is not refused but silently used for all three axes. Refusals are TypeError (only for pseudopotential or mass) or ValueError. The valence is the given one, that of the file, or -1 when None.", "quantifier": "all lattices, numbers of atoms, coordinates, pseudopotential and mass arguments, malformed position arguments", "why_tests_cant": "unit and transposition mistakes only show on skewed cells, and which malformed arguments slip through NumPy broadcasting is a statement about all shapes", "anchors": ["src/qtm/crystal/basis_atoms.py:BasisAtoms.from_cart", "src/qtm/crystal/basis_atoms.py:BasisAtoms.from_cryst", "src/qtm/crystal/basis_atoms.py:BasisAtoms.from_alat", "src/qtm/crystal/basis_atoms.py:BasisAtoms.from_angstrom", "src/qtm/crystal/basis_atoms.py:BasisAtoms.from_bohr", "src/qtm/lattice.py:Lattice.cart2cryst"]}
{"id": "C103", "title": "The epsilon drivers write every q-point once and in order for any number of processes", "statement": "For every number of processes, number of q-points and position of the special q-point: if each q-point can be calculated and compared with its reference, gw/epsilon_script.py ends with the special q-point's matrix in eps0mat_qtm.h5 and the matrices of all other q-points, each exactly once and in q order, in epsmat_qtm.h5 (not written when there are none), independently of the number of processes and of the numq argument, which is ignored; the second gather after the call, of a list that is still empty, does not disturb the file; each process keeps in memory exactly the matrices of its own block. If any q-point fails, the run fails for every number of processes. The reference compared with is that of the same q-point for all q-points after the special one, but the q-points before it are compared with another one's (the first with the last entry of the file). The notebook version (gw_example_bgw.py) runs the first numq q-points and writes the same files only when asked.", "quantifier": "all numbers of processes and q-points, positions of the special q-point, matrices, reference shapes", "why_tests_cant": "the block distribution depends on the number of processes; the example directory has one q-list with the special point first", "anchors": ["src/qtm/gw/epsilon_script.py:calculate_epsilon", "src/qtm/gw/gw_example_bgw.py:calculate_epsilon", "src/qtm/gw/epsilon.py:Epsilon.write_epsmat"]}
{"id": "C104", "title": "Copies of containers are independent and slices are views", "statement": "For every container, memory state and written values: zeros, from_array, copy, conj of complex data and imag of real data return containers with the documented values in memory that no existing container uses, so later writes to either side never show in the other; indexing with integers, slices, newaxis or Ellipsis, iteration, real and imag of complex data and reshape of C-ordered data return views, which always show the selected elements (or part) of the original and through which a write changes exactly those; reshape of other data is a view of a new copy. Iteration yields one view per entry of the first axis in order, and a container without leading axes has no length and cannot be iterated (TypeError). conj of real data is not independent: it shares the original's memory.", "quantifier": "all shapes, element types, index expressions with positive steps, memory states and values written afterwards", "why_tests_cant": "sharing shows only in later writes through other references; tests compare values right after the call", "anchors": ["src/qtm/containers/buffer.py:Buffer.copy", "src/qtm/containers/buffer.py:Buffer.conj", "src/qtm/containers/buffer.py:Buffer.real", "src/qtm/containers/buffer.py:Buffer.imag", "src/qtm/containers/buffer.py:Buffer.zeros", "src/qtm/containers/buffer.py:Buffer.from_array", "src/qtm/containers/buffer.py:Buffer.__getitem__", "src/qtm/containers/buffer.py:Buffer.__iter__", "src/qtm/containers/buffer.py:Buffer.reshape"]}
{"id": "C105", "title": "Reading the charge density of pw2bgw (RHO)", "statement": "read_rho on the bytes of a RHO file as pw2bgw writes it (fourteen framed Fortran records): for a complex-flavour file of a two-atom cell it returns exactly the written Miller indices and, for every spin and vector, the written value (spin s, vector i at position s*ng+i); a cell with any other number of atoms is refused with ValueError whatever else the file holds; a real-flavour file with an even number of values is accepted and returned as half as many complex numbers made of neighbouring values, an odd number is a ValueError; a title with a non-ASCII byte is refused; a file cut short at any byte is refused and bytes after the last record are ignored, and for any byte string at all an accepted file has a shortest accepted prefix with every shorter one refused and every longer one giving the same answer.", "quantifier": "all titles, dimensions, lattices, symmetry lists, numbers of atoms, numbers of vectors and spins, values, all truncation points, and (last part) all byte strings", "why_tests_cant": "a test reads one sample file (silicon, two atoms); it cannot show that every two-atom file is read back exactly nor that every truncation is noticed", "anchors": ["src/qtm/interfaces/bgw/inp.py: read_rho"]}
{"id": "C106", "title": "k-points and q-points given explicitly", "statement": "klist.KList.from_cart, from_cryst and from_tpiba store exactly the given points of reciprocal space in the given order (cart and tpiba return them) with weights divided by their sum; a list is accepted if and only if it is not empty, no weight is negative and all points have three coordinates (or, for from_cart and from_tpiba, one, silently read as (x,x,x)), everything else is a ValueError; weights that are all zero are accepted and become nan; indexing with an int counts from the front or the back and is an IndexError outside, a slice returns that part with the weights unchanged, any other index type (also np.int64) is a TypeError, and a for loop sees every point once in order; kpts.KList keeps the weights it is given, converts the three coordinate types and refuses wrong shapes, its gamma ignores the weight argument; QPoints.from_cryst takes the first three numbers of every row, gives every point weight one and q0 is the first flagged row (IndexError without any), or without flags the first of the shortest vectors.", "quantifier": "all invertible reciprocal cells and units, all lists of points and weights of any length, all ints and slices, all flag columns", "why_tests_cant": "the tests use two or three hand-written points in one cell; the claim ranges over all cells, lists, weights and indices", "anchors": ["src/qtm/klist.py: KList.from_cart, from_cryst, from_tpiba, __getitem__, cart, tpiba", "src/qtm/kpts.py: KList.__init__, gamma, k_cart", "src/qtm/gw/core.py: QPoints", "src/qtm/lattice.py: cart2cryst, tpiba2cryst"]}
{"id": "C107", "title": "The printed SCF report and eigenvalue table can be read back", "statement": "In the report print_scf_status prints for an iteration, every energy that is present (total, internal, one-electron, Hartree, XC, Ewald, smearing, and the Fermi level or else the highest occupied and lowest unoccupied level) stands exactly once, after its own label, as a number with eight decimals that float() reads back within half a unit of the last decimal, in Ry (levels in eV); labels of absent energies do not occur. For the energies scf assembles from their parts, the printed parts add up to the printed total within two units of 1e-8 Ry (three with smearing), and the internal energy differs from total minus smearing by at most one. The first line carries the one-based iteration number, the convergence line says what the caller passed, error and threshold are right to five and three digits. The report is refused (TypeError) exactly when both the Fermi level and the highest occupied level are None. print_eigenvalues prints one block per k-point and one line per band in order, three words: one-based index, eigenvalue in eV within 5e-9, occupation within 5e-7; it fails (IndexError) exactly when some k-point has fewer eigenvalues or occupations than bands.", "quantifier": "all real energies, all combinations of absent ones, all iteration numbers, times and thresholds, all lists of k-points, bands, eigenvalues and occupations", "why_tests_cant": "rounding and column overflow depend on every digit and magnitude of the numbers, and on which of the optional energies are present", "anchors": ["src/qtm/io_utils/dft_printers.py: print_scf_status, print_eigenvalues", "src/qtm/dft/scf.py: EnergyData", "src/qtm/constants.py: RYDBERG, ELECTRONVOLT"]}
{"id": "C108", "title": "Symmetries of the Kohn-Sham Hamiltonian built at a k-point", "statement": "Given a real local potential and pseudopotential projectors made for the density cutoff, (1) the plane waves of -k are the negatives of those of k and the Hamiltonian built at -k acts on complex-conjugated, mirrored coefficients as the one at k does on the originals, provided no |k+G| lies strictly between 0 and 1e-7 (there the code discards the direction); (2) the Hamiltonian at k+G0 acts on shifted coefficients like the one at k, provided both k-points are short enough for the density sphere; (3) moving all atoms and the potential by the same vector of the real-space grid only multiplies coefficients by exp(-i(k+G).d). Consequently the energy levels in the three cases are the same numbers. The Hamiltonian built from a real potential and symmetric coupling coefficients is Hermitian. The plane-wave set of a k-point exists exactly when some density-sphere vector is within the wavefunction cutoff, and for wavefunction cutoffs up to a quarter of the density cutoff the Hamiltonian can always be built.", "quantifier": "every lattice, cutoff, k-point, reciprocal vector G0, FFT grid, local potential, list of pseudopotentials (any projectors with l <= 6) and atom positions, every state vector and real energy", "why_tests_cant": "Tests compare a few k-points of one crystal; the symmetries concern every coefficient vector, every pair of plane waves and every set of projectors, including the branch cuts of arctan2 and the parity of spherical harmonics.", "anchors": ["src/qtm/gspace/gkspc.py GkSpace", "src/qtm/pseudo/nloc.py NonlocGenerator.__init__, gen_vkb_dij", "src/qtm/dft/ksham.py KSHam.__init__, h_psi"], "intended": "Given a real local potential and pseudopotential projectors made for the density cutoff, (1) the plane waves of -k are the negatives of those of k and the Hamiltonian built at -k acts on complex-conjugated, mirrored coefficients as the one at k does on the originals, provided no |k+G| lies strictly between 0 and 1e-7 (there the code discards the direction); (2) the Hamiltonian at k+G0 acts on shifted coefficients like the one at k, provided both k-points are short enough for the density sphere; (3) moving all atoms and the potential by the same vector of the real-space grid only multiplies coefficients by exp(-i(k+G).d). Consequently the energy levels in the three cases are the same numbers. The plane-wave set of a k-point exists exactly when some density-sphere vector is within the wavefunction cutoff, and for wavefunction cutoffs up to a quarter of the density cutoff the Hamiltonian can always be built."}
{"id": "C109", "title": "Container classes are made once per kind, space and spin count", "statement": "In every history of calls of get_FieldG/get_FieldR/get_WavefunG/get_WavefunR and their distributed versions: a call written like an earlier successful one returns the very same class; the class returned is of the kind asked for, over the space given, with the spin count given and the right number of coefficients, and is distributed exactly for distributed spaces; calls asking for different kinds, spaces or spin counts never share a class; a valid call always succeeds. For a space that is not distributed, calls written differently (by keyword instead of by position, or with keywords in another order) always give different classes, so that their containers cannot be combined; for distributed spaces every way of writing the call gives the class of the distributed factory. Converting to the other representation and back gives the original class exactly when that came from a positional call, and scatter accepts exactly the class got positionally for the global space. (As first written, conversion always preserved the class and numspin had to be an int: false, a float or NumPy integer is accepted once the class exists.)", "quantifier": "every sequence of factory calls with any arguments, every G-space object, spin count and way of writing the arguments", "why_tests_cant": "The classes depend on the whole history of earlier calls through the caches; a test sees one history.", "anchors": ["src/qtm/containers/field.py get_FieldG, get_FieldR, to_r, to_g", "src/qtm/containers/wavefun.py get_WavefunG, get_WavefunR, __init_subclass__", "src/qtm/mpi/containers.py get_DistFieldG, get_DistFieldR, get_DistWavefunG, get_DistWavefunR, scatter"]}
{"id": "C110", "title": "Exchange-correlation matrix elements returned by scf", "statement": "The array scf(..., ret_vxc=True) returns holds, for each k-point of this process's k-group in order and each band b, the expectation value of the exchange-correlation potential in band b of the first wavefunction object: sum over the grid of v|phi|^2 divided by sum of |phi|^2, equally the quadratic form of the potential's plane-wave matrix in the coefficients divided by their squared norm. It does not depend on norm or phase of the orbitals nor on the volume element, lies between the extremes of the potential, and moves by a when a constant a is added to the potential. The array has one row per local k-point and one column per band. With spin polarisation (refuted): the spin-down orbitals are never read and the two channels of the potential are added before being averaged in the spin-up orbitals.", "quantifier": "every grid, k+G space, set of bands and coefficient rows (not all zero), every potential and number of channels, every earlier use of the FFT object, every list of local k-points", "why_tests_cant": "the identities are over all orbitals and potentials; the one test that uses ret_vxc compares numbers of a single unpolarised silicon run", "anchors": ["src/qtm/dft/scf.py:scf", "src/qtm/containers/wavefun.py:WavefunRType.get_density", "src/qtm/containers/field.py:FieldRType.integrate_unitcell"]}
{"id": "C111", "title": "What a self-energy calculation starts from", "statement": "Building a self-energy calculation: each k-point asked for is found at the first place where the wavefunction file holds exactly that point, and IndexError is raised exactly when some point asked for does not occur. With one density channel the density is scaled so that its G=0 coefficient is the number of electrons. The q-points come from the dielectric file: Sigma.from_qtm_scf uses them unchanged, with q0 the first flagged point. The dielectric matrix kept for a q-point is, entry by entry, the given inverse matrix minus one in the sphere's own order, with the wings between G=0 and G'!=0 zero at q0, and at other q-points the row G=0 scaled by oneoverq/(v|q|) and the column G'=0 by oneoverq|q|/8pi; all other entries, including G=G'=0, unchanged. The spheres of the Coulomb cutoff and of the smaller dielectric cutoff have the origin at the same sorted place when their squared lengths are separated by more than 1e-10. Sigma.from_data (refuted) replaces the first q-point by zero and takes it for q0 whatever the file's flags say, and with two spin channels (refuted) the density kept is the first channel alone, whose G=0 coefficient is the number of electrons only when the second channel is empty.", "quantifier": "every list of k-points and of points asked for, every density and potential, every list of q-points and flags, every dielectric matrix, Coulomb table and pair of plane-wave spheres around a q-point", "why_tests_cant": "the identities hold for all matrices and plane-wave spheres; the tests use one silicon run with a flagged first q-point and one spin channel", "anchors": ["src/qtm/gw/sigma.py:Sigma.__init__", "src/qtm/gw/sigma.py:Sigma.from_qtm_scf", "src/qtm/gw/sigma.py:Sigma.from_data", "src/qtm/gw/vcoul.py:Vcoul.calculate_fixedeps", "src/qtm/gw/vcoul.py:Vcoul.fixwings"]}
{"id": "C112", "title": "Non-local half-steps of the split-operator propagator", "statement": "In the split-operator propagator the operation performed for each atomic species is exactly exp(-i dt/2 V), where V is the same separable non-local operator that the Hamiltonian adds in h_psi: component by component the result is the sum of the series of (-i dt/2)^k/k! V^k psi. The species are applied one after another, in the opposite order in the second half of the step. With Hermitian coupling matrices each operation keeps every inner product between bands, and the operation with -dt in the opposite order undoes it. Without projectors the step is that of the local propagator. A whole step acts on each band by itself, changes no other wavefunction object, and multiplies a band's norm by at most the number of grid points (the factor of the unnormalised transforms), whatever the potential and the time step. Assumed: numpy's inverse of the projector overlaps is the inverse, and expm is the sum of its series.", "quantifier": "every number of plane waves and projectors, all projectors with linearly independent rows, all coupling matrices (Hermitian where said), every time step, band list, potential and earlier use of the FFT object", "why_tests_cant": "the identity with the exponential and unitarity hold for all operators and states; no test runs the split-operator propagator with projectors against anything", "anchors": ["src/qtm/tddft_gamma/expoper/splitoper.py:SplitOper.__init__", "src/qtm/tddft_gamma/expoper/splitoper.py:SplitOper.oper_nl", "src/qtm/tddft_gamma/expoper/splitoper.py:SplitOper.prop_psi", "src/qtm/dft/ksham.py:KSHam.h_psi"]}
{"id": "C113", "title": "Log files: no line is lost or misplaced", "statement": "After setting up a log file the file of that name holds exactly the later messages that reach the levels of the logger and of the file, and the later captured warnings, in order, and nothing from before; an existing file of that name keeps its lines under the name with '.pre<stamp>' before the suffix. If every renaming goes to a name not in use - for one path, if the time stamps are distinct - every file that ever existed stays readable under some name and only grows. A message is written to one file at most, and while logging is disabled no file receives a line. Processes of one run calling the function together on an existing file all finish, after at most four steps each, rank 0 with the new file and the old file kept; lines logged meanwhile by processes that have returned are never lost. Not true of the code, each shown by a counterexample: two renamings within one second lose a log; after two capturing calls a warning goes to the old log as well; with logging disabled a captured warning is shown nowhere; other ranks always get the new file (they can keep writing to the renamed one); the call returns on every rank when the file is new (a rank that looks after another has created it waits in the barrier forever).", "quantifier": "every history of set-up calls, messages, warnings and switch changes on every initial directory; every number of processes and every interleaving of their file operations", "why_tests_cant": "tests run one process with one log file; the losses and the deadlock depend on the history and on the schedule", "anchors": ["src/qtm/logger.py:qtmlogger_set_filehandle", "src/qtm/logger.py:QTMLogger", "src/qtm/config.py:QTMConfig.logging_enabled", "src/qtm/config.py:QTMConfig.init_logfile"]}
{"id": "C114", "title": "Equality of lattices", "statement": "lattice1 == lattice2 is False for lattices of different classes; otherwise it implies that all nine components of the basis vectors agree to 1e-5 and that every point given by the same crystal coordinates moves by at most 1e-5 times the length of its coordinate vector, and it holds whenever the components agree to a third of 1e-5. It is reflexive and symmetric, != is its negation, and two equalities in a row give agreement to 2e-5. Not true, each shown by counterexamples: it is transitive; equal lattices have the same unit (alat is not compared, so alat coordinates differ); equal real lattices have equal reciprocal lattices; real lattices with equal reciprocal lattices are equal.", "quantifier": "all non-singular lattices, units and vectors", "why_tests_cant": "bounds for all lattices and vectors; the tolerance effects occur only for particular near-equal lattices", "anchors": ["src/qtm/lattice.py:Lattice.__eq__", "src/qtm/lattice.py:ReciLattice.from_reallat", "src/qtm/lattice.py:RealLattice.from_recilat", "src/qtm/mpi/check_args.py:check_system"]}
{"id": "C115", "title": "The input checks called by themselves", "statement": "check_lattice, check_basisatoms, check_gkspace and check_kpts, called by every process of a communicator, let a process through exactly when its object is the same as that of process 0: arrays to 1e-8 + 1e-5 |root value|, labels, valences, files, masses, k-point components, grids and serial/distributed kind exactly, lattice unit and cutoff to 1e-8; the lattice or wavefunction sphere is compared exactly when process 0 asked for it, whatever flag the other process passes. Processes with the same object as process 0 enter exactly the collectives process 0 enters. Not true, with counterexamples: the class of a lattice is compared (a reciprocal lattice passes for a real one with the same numbers; a real one waits forever when process 0 holds a plain Lattice); the comparison is symmetric between the processes.", "quantifier": "all objects, flags and array lengths on the process and on process 0", "why_tests_cant": "the result depends on the contents held by two processes and on the pairing of their collectives", "anchors": ["src/qtm/mpi/check_args.py:check_lattice", "src/qtm/mpi/check_args.py:check_basisatoms", "src/qtm/mpi/check_args.py:check_gkspace", "src/qtm/mpi/check_args.py:check_kpts"]}
{"id": "C116", "title": "Quantum ESPRESSO HDF5 wavefunctions and densities", "statement": "If read_wfc returns, the axes and k-point of every file opened agree with the calculation, and the coefficient stored for each band at each plane wave is the pair the file holds for that band where it lists the same plane wave (Miller indices below 100000). Files listing exactly the plane waves, in any order, load when the calculation keeps them in lexicographic order; a basis that starts with G=0 and holds some nonzero G with -G (every library G-space holding 0, G and -G) is always refused. With two spins both channels are read from the dw files. A charge-density file with more than three plane waves is never read.", "intended": "read_wfc attaches each coefficient of each spin channel's file to the right plane wave whatever the order of the file, and read_chargeden reads every density file of the calculation.", "quantifier": "all files, orders, bases, numbers of k-points, spins and bands; all objects with the attributes read", "why_tests_cant": "the index map must be right for every ordering of every plane-wave list, and the refusal must be known for every basis", "anchors": ["src/qtm/interfaces/qe/h5_io.py:read_wfc", "src/qtm/interfaces/qe/h5_io.py:read_chargeden"]}
{"id": "C117", "title": "Occupied and empty bands", "statement": "indices_occupied and indices_empty are increasing lists of band numbers, disjoint; a band is in the first when its occupation is at least one half and in the second when it is less; bands with a numeric occupation are in one of them and a NaN occupation is in neither. After fixed occupations of N electrons they are the first N/2 bands and the rest; after Fermi-Dirac smearing they are the bands with energy at most, and above, the chemical potential returned.", "quantifier": "all occupations, numbers of bands and k-points, distributions over processes, temperatures", "why_tests_cant": "the boundary case (exactly one half, exactly at the chemical potential) must hold for every spectrum", "anchors": ["src/qtm/dft/kswfn.py:KSWfn.indices_occupied", "src/qtm/dft/kswfn.py:KSWfn.indices_empty"]}
