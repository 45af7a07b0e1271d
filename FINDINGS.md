# Findings

Places where the code does not do what its documentation, its names or a user would expect, found while modelling it.
The theorems named `..._refuted` (listed per property in MANIFEST.json) machine-check part of them on the model;
the rest is from reading the source for the model and is not machine-checked.

## Infrastructure
- C113 `qtmlogger_set_filehandle`: when the log file is new, a rank that looks after another rank has created it waits in the barrier forever; other ranks may keep appending to the renamed old log; handlers of "py.warnings" are never removed, so warnings also go to older logs; two renamings within a second lose a log; with logging disabled captured warnings vanish.
- C114 `Lattice.__eq__` is absolute (1e-5), ignores alat/tpiba and is not transitive; lattices are unhashable.
- C83 `check_system`: the root never raises; another rank's exception leaves the root in the closing barrier; a mass that is None on one rank mispairs the broadcasts; a species without pseudopotential gives AttributeError.
- C101 without mpi4py: NumPy >= 1.25 compares arrays with "IN_PLACE" and raises for more than one entry; out-of-place Allreduce leaves recvbuf; scatter returns the whole sequence; Split gives a null communicator.
- C91 pw.py: options where a short one precedes a long one; `-nk` as argv[1] becomes the file name; band groups differ silently from the request; with several pools and pw > 1 the G-space is distributed over the world; npools = 0 gives ZeroDivisionError; most electrons options never reach scf.
- C92 unknown FFT libraries give TypeError from the message formatter (`value_not_in_list_msg`); CuPy's overwriting ifft with the distributed `_g2r` never re-zeroes its input.
- C39/C40 a long label started twice makes the stored name ambiguous (RuntimeError).
- message helpers: `value_not_in_list_msg` indexes `[1:, -1]`, `type_mismatch_seq_msg` asserts on the type.

## Containers and G-spaces
- C96 mixing distributed and serial containers raises AttributeError (`NotImplemented.shape`); `np.prod` never matches `np.multiply`; coinciding axis lengths hang or give partial results; `integrate_unitcell(other=array)` is not summed over ranks.
- C99 an output with another batch size silently transforms the smaller number of rows; a non-mergeable output view is accepted and its result lost; a real output of g2r drops the imaginary part.
- C104 `conj` of real data shares memory. C109 `get_FieldG(g)` and `get_FieldG(gspc=g)` are different classes; numspin 1.0 is accepted once the class for 1 exists.
- `Buffer`'s constructor never calls `_check_data`; `fieldg_div` is wrong for non-default axes; gather/symmetrise of a shape-() distributed field raises TypeError; `data_g0` raises on a rank without vectors.
- `GSpaceBase.__init__` overwrites DummyFFT3D; a grid-shape check compares a value with itself.
- C12 too small user grids truncate the G-list silently.

## Crystal, k-points, symmetry
- C106 one-coordinate k-points broadcast to (x,x,x); all-zero weights become nan; `gamma` ignores `k_weight`; QPoints weights are not normalised. C102: the same broadcast for atoms; integer masses refused; `__str__` labels crystal coordinates "units of alat".
- `filter_frac_trans` filters in place and is not a group on anisotropic grids; `CrystalSymm` deletes entries before its None test; `norm2` flattens the shape for ndim > 2; `BasisAtoms.__repr__` fails without pseudopotential.
- C55 `k_tpiba`. C41: ibrav = 14 uses cosAB twice; A/B/C input always KeyError; the mutable default celldm is shared.
- `ewald`: the range comes from row norms and unwrapped positions.

## DFT
- C28/C29 Marzari-Vanderbilt smearing: occupations above 1, count not monotone, entropy of either sign. C27: zero electrons with fixed occupations raise ValueError.
- C35/C36 `comm.bcast(dftconfig)` and a bcast of `vloc.data` are discarded; `vloc_g0` is divided twice.
- C86 a converged `en.total` always equals `en.hwf`. C85: `starting_mag` is truncated by zip.
- C84 `np.random.seed(ik)` does not affect `default_rng`; both spin channels get the same start; plane-wave ranks repeat the stream; noncollinear `init_random` raises.
- C66 non-linear core correction enters sigma only, not rho; grad from rho without core; mixed LDA+GGA KeyError; all-unknown functionals give `compute(*None)`. The core correction in loc works only for a two-vector basis.
- C37/C60 Davidson returns stale vectors at maxiter and crashes on exact eigenvectors. C93: the SciPy solver ignores the threshold and the starting bands; unconverged PRIMME vectors are accepted; the setter of `eigsolve_method` excludes primme.
- C90 `np.asarray(out, "F")` is complex64: the BLAS path accumulates in single precision; `get_zgemm` returns None for unknown array types with CuPy.
- C108 periodicity needs room in the cutoff sphere, and k+G with norm up to 1e-7 gets angle 0, so parity breaks there.
- C110 with spin `ret_vxc` uses v_up + v_down on spin-up orbitals, and only the k-points of the own k-group.
- C69 `_sph2pw` counts r[0] twice; Simpson drops the last interval of even meshes; interpolation uses rint so half of the queries extrapolate; l > 6 returns NotImplemented; k+G beyond the table raises IndexError.
- C73 zero projectors TypeError; logicals only "t"/"T"; missing attributes leave type objects.
- noncollinear KSHam raises TypeError.

## TDDFT
- C42 spin raises, noncollinear does nothing; C62 ETRS with SplitOper advances 2 dt.
- C112 SplitOper prints `type(vkb)`; several species are only split; the transforms are unnormalised.
- C80 `write_freq` is ignored; the file is removed before it is rewritten; the newest row is never in the partial file; `damp_func` needs `damp_fac`; the density normalisation does nothing.

## GW
- C111 `Sigma.from_data` ignores `is_q0`, zeroes the first q-point whatever it is and takes the one of least norm as q0; `from_qtm_scf` keeps only the first spin channel; k-points are compared exactly; dielectric matrices must already be in BGW order.
- C103 `numq` of the script is ignored; references are wrong for q-points before q0; each process keeps only its own matrices.
- C95 the exact static CH ignores `band_index_min` and uses the number of q-points as number of k-points; labels of the report are wrong for `band_index_min` > 1.
- C97 single q-point ValueError; a shift shorter than half the spacing gives nan; the box is no unit cell for unequal grids; one method uses an unbound name.
- C78 skipped plasmon-pole entries of SX still contribute; negative imaginary densities pass the test for reality; `ch_static` of the CH routine uses v_m for v_k. C77: q-lists wrapped to [-1/2,1/2) take a wrong -q; lost transitions in epsilon for such lists; C47: degenerate gaps give nan, partially occupied bands are in neither list.
- C87 `read_mats` returns the conjugate of what `write_mats` wrote; negligible last rows shrink the matrices; `write_mats([])` truncates the file first. C72: wing and wing' are transposed relative to the comments.

## Files
- C51/C67/C74 QE input: `.true.` rejected, strings lowercased, commas and inline comments refused, blank lines in a namelist IndexError, explicit k-lists and `input_dft` always raise, `nbnd` ignored with fixed occupations, `if_pos` refused, gamma needs a count line, "(alat)" keeps its parentheses.
- C68 the grid for a QE input loses the +n/2 plane wave.
- C75 BGW input: epsilon options never applied, scale factor dropped, comment lines refused, only the first of several values kept, decimals like ".5" and "1d0" refused.
- C89 wfn2py and parse_wfns exchange real and imaginary parts; two-spin files always raise; tolerant integer comparisons from 1e5 on. C70: int bands TypeError, last occurrence wins.
- C94 second spin overwrites the first; the first header is used for all tables. C100: a blank line ends read_vxc; one-row vcoul files raise. C105: read_rho only for two-atom cells, real files merged pairwise. C88: converting with an address skips conversion. C107: a report without Fermi and HO level raises.
- C116 interfaces/qe/h5_io.py: every public function raises on the library's own objects (they lack the attributes asked for). On objects that have them: the order check of read_wfc demands lexicographic order, which no basis starting with G = 0 and holding G and -G has, so such files are always refused; with two spins both channels come from the dw file; read_chargeden transposes the vector table before sorting and always raises beyond three plane waves; write_chargeden always raises, after emptying the file.
