# DESIGN

Formal model of qtm-iisc/QuantumMASALA in Coq 8.16.1. See properties.jsonl for the English statements,
MANIFEST.json for the theorems of each, ASSUMPTIONS.md for what `Print Assumptions` lists for each theorem,
seeded/LOG.jsonl for the wrong programs the theorems were tested against.

## Layout

`rocq/theories/XModel.v` models a part of the source, every definition citing file and lines; `XSpec.v` (where
present) is the vocabulary of the statements, written without reference to the model's helpers; `XProofs*.v` are
lemmas; `PropsX.v` holds the theorems named `Cnn_...`, each followed by `Print Assumptions`, and examples showing
that the hypotheses are met by concrete data. `_partial` marks a theorem that covers only part of its property,
`_refuted` one showing that an expected part of the property is false of the code (a finding, see FINDINGS.md).
`Base.v` (Python results and errors, list lemmas), `SortModel.v` (stable argsort/lexsort), `CBase.v` (finite sums
of complex numbers) are shared. tools/ holds the scripts that regenerate MANIFEST.json, ASSUMPTIONS.md and LOG.jsonl.

## Trusted base

1. Coq 8.16.1's kernel (no check is switched off, no plugin, no native_compute; `vm_compute`/`reflexivity` conversion is used).
2. Axioms: only those of the standard library, through `Reals` and `FunctionalExtensionality`/`Classical`:
   `ClassicalDedekindReals.sig_forall_dec`, `ClassicalDedekindReals.sig_not_dec`, `Classical_Prop.classic`,
   `FunctionalExtensionality.functional_extensionality_dep`, and (only in the Davidson example and what uses it)
   `Description.constructive_definite_description`. ASSUMPTIONS.md lists them theorem by theorem; 75 theorems are closed.
   Coquelicot is used for complex numbers, limits, derivatives and integrals; it adds no axiom of its own.
3. That the model is the code. What was simplified is said in the comment of each definition; the general conventions are:
   - **Numbers.** Floating point numbers are exact reals (complex: pairs of reals); no rounding, overflow, or NaN, except where a
     NaN/inf outcome decides the control flow (then it is `None` or an error). Python and NumPy integers are `Z` or `nat`.
     Tolerances (1e-5, 1e-8, ...) are kept literally.
   - **Exceptions.** A Python exception is `Err e` in a result monad; only the exception class is kept, not the message.
   - **FFT libraries** (numpy, scipy, pyfftw, mkl): the work array after a call is the exact DFT of its contents
     (FFTModel.v); everything around (index maps, normalisation, buffer reuse, stick decomposition, all-to-all) is modelled.
   - **Linear algebra.** `np.linalg.inv` is the exact inverse and raises on singular input; `eigh` is any function that
     satisfies its contract (eigenvalues ascending, eigenvectors orthonormal in the given metric); einsum/matmul are their sums.
   - **MPI.** A collective is a function of the list of all ranks' arguments; a communicator is the list of its world ranks.
     Point-to-point ordering and failures of the MPI library are not modelled. Deadlock is modelled where a property is about it
     (C36, C58) by comparing the sequences of collectives.
   - **Special functions and libxc.** libxc functionals, and erf/erfc in the Ewald and local-potential models, are parameters (arbitrary functions; for smearing erf is the concrete integral of ErfBase.v);
     theorems that need a fact about them state it as a hypothesis.
   - **spglib** is represented by its contract (the list of operations forms the space group; the mapping of grid points is by orbits).
   - **Text.** Files are lists of lines over ASCII; `int()`/`float()` are modelled on the decimal grammar; XML is a tree; JSON only numbers.
   - **NumPy protocol** of the containers: shapes, indexing, ufunc dispatch as in BufferModel.v; dtype promotion is not modelled.
4. The English statements in properties.jsonl against the Coq statements: judged by reading.

## Modelled and not modelled

| source (src/qtm/...) | model | not modelled |
|---|---|---|
| mpi/utils.py, klist.py, kpts.py | ScatterModel, KPtsModel, KListInpModel | printing; spglib inside (contract) |
| mpi/comm.py, mpi/check_args.py, dft/config.py (groups) | CommModel, CommSerialModel, CtxModel, CheckModel, CheckMoreModel | abort/exit hooks |
| mpi/gspace.py, mpi/containers.py | DistModel, DistBufModel (ufuncs, inner products), DistHamModel (Hamiltonian and density on all ranks) | logical and bitwise ufuncs of distributed containers; memory layout of Alltoallv buffers beyond counts and displacements |
| gspace/*.py | GIndexModel, GSphereModel, SortModel, BatchModel (strided arrays, batches) | caching of attributes; real output arrays |
| fft/*.py, fft/backend/*.py | FFTModel, BackendModel | plan flags, threads, alignment |
| lattice.py | LatModel, LatEqModel | |
| crystal/*.py | CrystalModel, AtomsInpModel, SymmModel | spglib call itself |
| symm/symmetrize_field.py | SymmModel, DistSymmModel | |
| containers/*.py | BufferModel, AliasModel (memory sharing), FactoryModel (cached factories), GemmModel (zgemm wrapper), TddftModel (density) | dtype promotion, ufuncs with several outputs, `order=` |
| config.py, dft/config.py | ConfigModel | effect on the logging module, pyfftw detection |
| logger.py, config.py (logging) | LoggerModel, LogFileModel | formatting of the lines |
| dft/occup/*.py | OccModel, OccIdxModel, SmearModel (erf: ErfBase) | |
| dft/mixing/*.py | MixModel | |
| dft/scf.py | ScfModel, StartModel (start, energies), WfnInitModel, VxcModel (ret_vxc) | printing; in ScfModel the physics is a parameter of the driver |
| dft/ksham.py | KSHamModel, HamSymModel (construction from k-point, potential and pseudopotentials), GemmModel (accumulation through zgemm) | noncollinear (proved to raise) |
| dft/eigsolve/*.py | DavModel, EigLibModel (scipy, primme drivers) | ARPACK and PRIMME themselves (arbitrary programs), scalapack branch |
| dft/kswfn.py | TddftModel, WfnIOModel, WfnInitModel | the bit generator (an arbitrary stream) |
| pot/*.py | PotModel, EwaldModel, XcModel | meta-GGA, hybrids |
| pseudo/*.py | LocModel, NlocModel, UpfModel | XML parser, md5 |
| tddft_gamma/* | TddftModel, SplitNlModel (projectors in SplitOper) | plotting |
| tddft_gamma/optical.py, propagate.py (loop) | OpticalModel | distributed branch, progress output, set-up of the potentials (arbitrary) |
| gw/core.py, epsilon.py, vcoul.py, sigma.py, epsilon_script.py, gw_example_bgw.py | GwModel, EpsScriptModel (drivers), SigmaModel, GppModel, CohsexModel, McVcoulModel, VcoulIOModel (vcoul text files), SigmaPrepModel (constructor, wings) | MT19937 (an arbitrary stream), the k-d tree (an arbitrary nearest point), v_minibz_montecarlo (always UnboundLocalError), autosave |
| io_utils/dft_printers.py | ReportModel | nan/inf, print's buffering; representations of k-points and weights |
| interfaces/qe/* | QeInpModel, IbravModel, ParseInpModel, PwDriverModel (pw.py), QeH5Model (h5_io.py, on any objects with the attributes read) | write_chargeden (raises on every call), h5py itself |
| interfaces/bgw/* | BgwInpModel, WfnIOModel, WfnPyModel (wfn2py), EpsFileModel (matrix files, nested dictionaries), SigmaHpModel (sigma_hp.log), VcoulIOModel (vxc.dat), RhoFileModel (RHO, on bytes), parts in GwModel | h5py itself; auxfile header contents |

## Restated properties

Many properties were first written as the documentation or a user would have them and turned out to be false of the
code in some region. For those, `statement` in properties.jsonl was rewritten to what the code does (the region where
the expected behaviour holds, and what happens outside it), the original wording is kept in the field `intended`, and
the difference is proved by the theorems with the suffix `_refuted`. `proved` in MANIFEST.json refers to `statement`.

## Plan per property (written before the proofs)

| id | property | plan |
|---|---|---|
| C01 | Block scatter covers every item exactly once | Model scatter_slice over Z (Python //, %); specification = 'concat of ranges = range(len)'; induction on ranks. |
| C02 | Block scatter is balanced and its length helper agrees with it | Same model; arithmetic over Z with div/mod. |
| C03 | scatter_slice without a rank returns all slices | Model the None branch literally (array values, NumPy truth-value error). Expected refuted. |
| C04 | k-points are distributed without loss or duplication | KList = list of (k,weight); slices with Python semantics; Permutation spec. |
| C05 | MPI process groups partition the world | Model colors/keys and MPI Split as filtering by color; partition statement over all world ranks. |
| C06 | G-vector to FFT-grid index map is a bijection | Z model of cryst2idxgrid/check_g_cryst; bijection by mixed radix arithmetic. |
| C07 | G-vector reordering is a sorted, invertible permutation | lexsort as insertion-stable sort by key; argsort of permutation as inverse; Permutation/Sorted spec. |
| C08 | G = 0 is the first vector iff it is present | Corollary of C06+C07. |
| C09 | Plane-wave sphere selection is exact | Lattice metric over R; GSpace/GkSpace constructor as filter; spec = set membership + NoDup. |
| C10 | FFT grid rounding is the least admissible size | Fuelled loop over Z with a proved fuel bound (next power of two); smoothness spec by prime divisors. |
| C11 | The minimal FFT grid contains the whole cutoff sphere | Real vector algebra over R (Cauchy-Schwarz on b2 x b3). |
| C12 | User-supplied grids that are too small are refused | Model check_grid_shape literally. Expected refuted. |
| C13 | g2r followed by r2g is the identity on plane-wave coefficients | Work array + gather/scatter model, exact DFT over complex pairs of R (roots of unity). |
| C14 | Stick-based FFT equals the full 3-D FFT | Sticks model (per-column 1-D transforms then planes) proved equal to full model, parametric in the 1-D transforms and concretely for the DFT. |
| C15 | FFT work buffers carry no state between calls | Stateful model: FFT object with buffers, arbitrary call history. |
| C16 | Distributed G-space scatter/gather round-trips | Model of stick distribution and slices for all ranks; list round-trip. |
| C17 | Distributed FFT equals the serial FFT | Alltoallv model: matrix of blocks; serial equivalence. |
| C18 | Lattice coordinate conversions are inverse to each other | 3x3 matrices over R. |
| C19 | Metric, dot and norm agree with Cartesian geometry | 3x3 matrices over R. |
| C20 | Reciprocal lattice is dual to the real lattice | 3x3 matrices over R. |
| C21 | Supercell generation preserves the crystal | Supercell model as nested loops over Z offsets and real coordinates. |
| C22 | Electron count of a supercell scales | Same model with valence rule of BasisAtoms. Expected partial/refuted for int species. |
| C23 | Monkhorst-Pack meshes sample the zone uniformly | MP grid over rationals (numerators), meshgrid as nested list. |
| C24 | Time-reversal reduction keeps a faithful sampling | same; expected refuted. |
| C25 | Density symmetrisation is a projection | Group-average operator over a finite group action on G indices with phases (complex). |
| C26 | Containers never mix bases and keep their type | Decision-procedure model of __array_ufunc__ / __getitem__ (shape calculus). |
| C27 | Fixed occupation fills exactly the electrons | List model over R. |
| C28 | Smearing functions are valid occupations | Real analysis (exp; erf from its integral, ErfBase). |
| C29 | Chemical-potential bisection is sound | Loop as inductive relation/fuelled function; invariant. |
| C30 | Chemical-potential search terminates | Expected refuted (half filling / empty bracket). |
| C31 | Density-mixing history is a bounded ring of the latest steps | State machine mix : state -> in/out -> state; abstract history = last mixdim. |
| C32 | Mixing fixed point, first step and charge conservation | Vector-space model over R; solve() abstract solution vector. |
| C33 | Mixers do not alter the caller's density | Heap/alias model. Expected refuted. |
| C34 | Configuration setters validate and store | Record state machine; some properties expected refuted. |
| C35 | SCF driver stops correctly and reports truthfully | Loop over an oracle stream of (errors). |
| C36 | Ranks of a band group execute the same collectives | Traces of collectives per rank. Expected refuted for n_bgrp>numbnd. |
| C37 | Davidson search space stays within its workspace | State machine over convergence patterns. |
| C38 | Eigenvectors returned correspond to the eigenvalues returned | Same with symbolic Ritz tags. Expected refuted on maxiter exit. |
| C39 | Timers refine a simple stopwatch map | Refinement to a finite map label -> stopwatch. |
| C40 | Any label accepted by start can be stopped | Expected refuted (30 char labels). |
| C41 | QE lattice generation yields the documented cell | 3x3 matrices over R; per-ibrav metric. Triclinic expected refuted. |
| C42 | Taylor propagator is the truncated exponential | Linear operator over an R/C module; loop with buffer swap. |
| C43 | Non-local projector ordering enumerates all (l,m) | List model over Z. |
| C44 | Radial interpolation is exact for cubics | Polynomial identity over R. |
| C45 | Complex data files round-trip | List model. |
| C46 | Hamiltonian application is linear and Hermitian | Finite-sum complex algebra. |
| C47 | RPA polarizability is Hermitian negative semi-definite and both code paths agree | Finite-sum complex algebra. |
| C48 | BerkeleyGW ordering of G-vectors is a deterministic total order | Sorting model. |
| C49 | Hartree term is the Coulomb energy | Finite sums over R/C. |
| C50 | Communicator context managers keep ranks in step | Context-manager trace model. |
| C51 | QE input parser maps namelist text to typed values | Parser model over ascii strings. |
| C52 | Umklapp folding brings k+q into the first cell | Floor arithmetic over R. |
| C53 | Mesh coordinates are wrapped around the requested origin | rint model over R; congruence plus distance bound; default-argument path expected refuted. |
| C54 | Parseval on the grid | Corollary of the DFT orthogonality used for C13. |
| C55 | KList reports the same k-points in every coordinate system | Model the (3,N) array transformation with its axis argument; refute. |
| C56 | Timing decorators are transparent | program syntax with timed calls, sequencing, raise and try; theorem by induction over programs; recursion refuted. |
| C57 | Broyden mixing extrapolates along the stored steps with the least residual; both mixers agree | MixModel.v concrete inner product and overlap/inverse algebra; mix_orth gives orthogonality, orth_min gives optimality; sign bookkeeping for GenBroyden. |
| C58 | Every image rank receives the mixed density | mix_group: root computes, others receive; error path leaves the others blocked (refuted part). |
| C59 | The Davidson preconditioner uses the diagonal of the Hamiltonian | KSHamModel.ham_diag against the dense matrix of h_psi; holds when vloc_g0 is the grid sum of the rescaled potential; refuted for the value scf passes (divided by the number of grid points twice). |
| C60 | Davidson accepts a start that is already converged | DavModel; refuted: the zero residual is divided by its norm, so solve never returns. |
| C61 | The density of a set of orbitals integrates to their occupations | Model compute_rho with the FFT driver model and slice/list selections; prove the pointwise formula and, by Parseval, the integral; refute the band-list case. |
| C62 | One propagation step advances the orbitals by exactly one time step | Heap of KSWfn objects; prove for the Taylor operator with arbitrary density/potential callbacks; refute for the split operator (free electrons advance by 2 dt). |
| C63 | Gradient and divergence of periodic fields | PotModel; coefficient formulas for every shape, derivative of the trigonometric sum via stdlib derivable_pt_lim; other axes refuted |
| C64 | Ewald energy is a function of the crystal | EwaldModel with erfc as a parameter; invariance by phase and permutation arguments; coverage of images proved for axis-aligned cells, refuted otherwise |
| C65 | Local pseudopotential and atomic density superposition | LocModel; composite Simpson specification, induction over the mesh; first-node double counting, even meshes and core correction refuted |
| C66 | Exchange-correlation energy and potential | XcModel with the libxc functionals as parameters; wiring theorems; independence of the core density (NLCC) refuted |
| C67 | Parsing one QE input does not influence the next | State machine over the shared default dictionary; independence theorem for inputs with own celldm, refutation for inputs without. |
| C68 | FFT grid chosen for a QE input fits the density cutoff | Cauchy-Schwarz against the dual lattice; boundary counterexample with its exact condition. |
| C69 | Radial transforms of the projectors are spherical Bessel transforms | Power series over R, recurrence, alternating series bound. |
| C70 | Overlap between k-points is the shifted inner product | Dictionary model, mixed-radix injectivity, sums over lists. |
| C71 | Closed-form Coulomb averages and their distribution over processes | Closed forms over R; the averages are stated as RInt over shells (surface of a shell at distance d gives the logarithmic kernel), proved by derivatives; array_split/gather as list functions, induction on the process count. |
| C72 | fixwings changes head and wings only, and consistently | Entry functions; case analysis on row and column; counterexample for the Coulomb factor taken from the first sorted vector. |
| C73 | UPF pseudopotential files are read faithfully | UpfModel.v models from_file over the parsed XML tree; PropsUpf.v proves the reading theorem from a spelling-level specification and refutes the parts the reader gets wrong. |
| C74 | A pw.x input becomes the calculation it describes | ParseInpModel.v models parse_inp with the UPF reader and spglib as parameters; PropsParseInp.v proves soundness per quantity, an acceptance theorem, and refutes the parts that never work (explicit k-points, input_dft, fallbacks, nbnd with fixed occupations). |
| C75 | BerkeleyGW input files are read as written | BgwInpModel.v / PropsBgwInp.v: line scanner, JSON number grammar (proved equivalent to an independent grammar), keyword tables and attribute setting; a file is a list of items with arbitrary spacing, theorems by induction over items. |
| C76 | Static self-energies are schedule independent, real and have the physical signs | Model the three methods with the serial and the split loop over q-points (SigmaModel.v); show both equal one sum over q-points and bands by induction over the parts, then rewrite the einsum sums as |M|^2 and quadratic forms. |
| C77 | Self-energy matrix elements conserve momentum and the -q bookkeeping is exact | Model argmin over norms exactly; prove that an exact match has norm zero and is found; transfer the sphere of q to that of -q by the even size function; reuse the FFT convolution lemma for the products of bands. |
| C78 | Plasmon-pole screening reproduces the static dielectric matrix and its formulas are consistent | Model one matrix entry, the branch selection, the density look-up and the q-loop; prove the mode relation, equality of branches, static limit and schedule independence; refute the rest with witnesses. |
| C79 | Quasiparticle energies solve the linearised equation and are returned under the right labels | Model one level's row as printed and as returned, the labels and the exact static hole through the FFT model; prove the linearised equation, the exact-hole formula, and refute the columns and labels. |
| C80 | Time-dependent dipole after a kick | OpticalModel over FFTModel/TddftModel/LatModel with an arbitrary propagation step; loop invariant relating the table and the file effects to the trajectory of densities (PropsOptical) |
| C81 | Dipole spectrum | OpticalModel.dipole_spectrum with scipy's simpson as an arbitrary linear quadrature; closed formula and its consequences (PropsOptical) |
| C82 | Occupations and smearing correction are thermodynamically consistent | SmearModel (three function pairs over ErfBase), PropsFreeEn: derivatives with Coquelicot, clamps handled locally, sums by induction. |
| C83 | The cross-process input check accepts exactly consistent inputs | CheckModel: a process as a list of collectives and local assertions, compared with what process 0 contributes at the same position; iff by induction over the species lists; prefix argument for the hang. |
| C84 | Random starting wavefunctions | WfnInitModel: generator = position in an arbitrary stream, chunk loop as a fold; closed form by induction over chunks, then arithmetic on positions; k-groups by C01's partition |
| C85 | Starting density of an SCF calculation | StartModel on top of LocModel.rhoatomic; sums by induction over species, charges by the G=0 coefficient (C65) |
| C86 | Energies reported by an SCF calculation | StartModel.compute_en; algebra on grid integrals plus C49's identity for the Hartree energy |
| C87 | Dielectric matrix files | EpsFileModel: padding, (re,im) dataset, unpadding; extents characterised by the last non-negligible row/column, induction on sizes |
| C88 | Nested dictionaries in HDF5 | EpsFileModel: trees, create_group/create_dataset with duplicate-name errors; structural induction on trees |
| C89 | Loading BerkeleyGW wavefunction files | WfnPyModel: lexsort on both lists, scatter into the table, the asserts, np.split; sorted permutations of each other agree |
| C90 | Accumulating matrix products | GemmModel with Flocq's round-to-nearest for the complex64 conversion of np.asarray(out, "F"); error carried through the species by induction |
| C91 | Command line and process layout of the pw.py driver | PwDriverModel.v: argument lookup on lists of texts, layout arithmetic on top of CommModel (C05) and the distributed sphere of DistModel (C16); PropsPwDriver.v. |
| C92 | FFT libraries are interchangeable | BackendModel.v: each wrapper's scaling and its destruction of inputs by contract, the transforms of FFTModel/DistModel over any wrapper; PropsBackend.v reduces every history to the reference transforms of C13-C17. |
| C93 | The library eigensolvers are handed exactly the plane-wave Hamiltonian, and what they find is what is stored | EigLibModel.v: the library is an inductive interactive program (products, preconditioned blocks, result or exception), the driver runs it with h_psi of KSHamModel; proved equal to the run against the dense matrix by induction on the program, using C46. |
| C94 | The sigma_hp.log reader returns every table of a complete file, column by column | SigmaHpModel.v: the loop as a four-state machine over lines with Python dictionaries; the file is specified as a list of blocks; induction over blocks and rows with an invariant for the dictionary of the current point. |
| C95 | Exact static Coulomb hole and the static COHSEX report | CohsexModel follows the loops and the driver; the row of a level is reduced to its density components (FFT facts), real-space form for the sign, resolution of the identity for the equality with the band sum; report by inversion of the driver; instance with two bands on two grid points. |
| C96 | Distributed containers give the serial results on every rank | Model one ufunc call of all ranks: BufferModel's __array_ufunc__ on each rank, then MPI_Allreduce of the ranks holding a bare array (blocking if not all take part). Prove the reductions by regrouping commutative monoid sums along the partition. |
| C97 | Monte Carlo Coulomb averages are the averages they claim | McVcoulModel: the stream is an arbitrary list of words and the k-d tree an arbitrary nearest-point function; Cauchy-Schwarz for the inscribed ball, integrals with Coquelicot |
| C98 | Plane-wave parallel Hamiltonian and density equal the serial ones | DistHamModel: all ranks in lock step over the distributed transforms of DistModel; every step shown to commute with the division into pieces, from C16/C17 |
| C99 | Batched transforms pair rows in C order and write only the output | BatchModel: one memory, strided views, NumPy reshape as view-or-copy, the zip loop over FFTModel drivers; addresses shown to be the collapsed axes, loop invariant over rows |
| C100 | Coulomb and Vxc tables in text form | VcoulIOModel.v: format specifications (>11.8f, >6, .7E) on exact reals as digit texts, the writer's loops with their index errors, np.genfromtxt (comments, blank lines, column check, squeeze) and read_vxc line by line. Proved by giving each printed number a literal of C51's grammar, and induction over lines. |
| C101 | QTMComm without mpi4py acts like MPI in a group of one process, up to listed differences | heap of arrays, the fallback branch of each method; compare with the one-process semantics of MPI in CommSerialSpec.v by case analysis |
| C102 | Atoms given in bohr, angstrom, alat or crystal units are put where the numbers say | arrays with their shape, NumPy broadcasting of cart2cryst; inverse matrix lemmas of C18; characterisation by inversion |
| C103 | The epsilon drivers write every q-point once and in order for any number of processes | loop as a fold with memory, file and list; np.array_split from C71; gather in rank order; induction over the q list |
| C104 | Copies of containers are independent and slices are views | memory of float cells, arrays as maps from indices to cells; separation (no shared cells) and frame lemmas; views by injective index maps of C26 |
| C105 | Reading the charge density of pw2bgw (RHO) | byte-level model of the Fortran record reader and of the fourteen reads; separate writer from the quoted WRITE statements; round trip by computation on frames, truncation by a locality invariant of readers (proved for every primitive and preserved by sequencing) |
| C106 | k-points and q-points given explicitly | model of the array construction (shapes and broadcasting), of the weight normalisation with nan, of Python slices and of the sequence protocol; theorems relate the stored list to the points of space by the cell axes |
| C107 | The printed SCF report and eigenvalue table can be read back | ReportModel renders the lines over exact reals; grep by label and py_float as the reader; ReportProofs shows that fixed and scientific formats read back; sums by counting half units. |
| C108 | Symmetries of the Kohn-Sham Hamiltonian built at a k-point | HamSymModel builds the Hamiltonian from k, lattice, potential and projectors (arctan2, spherical harmonics and table interpolation written out); parity of the projectors and of the plane waves gives the intertwining relations, from which equality of the level sets follows by transport. |
| C109 | Container classes are made once per kind, space and spin count | FactoryModel is an interpreter state of created classes and lru_cache entries keyed by the call as written; an invariant over histories relates every cache entry to its class, and stability of look-ups under later calls gives the identities. |
| C110 | Exchange-correlation matrix elements returned by scf | VxcModel: the loop over k-points and bands with the FFT driver state; the entry is reduced to a ratio of grid sums (the volume element cancels), then Parseval and the plane-wave expansion give the matrix element; bounds, invariances and the shift follow from the ratio; refutations for two channels |
| C111 | What a self-energy calculation starts from | model of the constructor and of fixwings for complex matrices (SigmaPrepModel); first-occurrence search; index tracking through sort, wing fixes and re-ordering; stable-sort uniqueness for the two spheres |
| C112 | Non-local half-steps of the split-operator propagator | SplitNlModel with expm as a convergent entrywise series (Coquelicot); powers of the separable operator reduced to powers of overlap times coupling; Cauchy products for unitarity, adjointness for the inverse, Bessel's inequality for the local part |
| C113 | Log files: no line is lost or misplaced | state machine of one process (handlers, capture switch, directory, inode contents), induction over histories; interleaving semantics of P processes with is_file, barrier, rename and open as atomic steps, phase invariants and a measure; counterexamples for the false claims |
| C114 | Equality of lattices | Frobenius norm over exact reals, Cauchy-Schwarz for the displacement bound, cubic counterexample families |
| C115 | The input checks called by themselves | steps of a process (broadcasts with root 0 and comparisons) run against the contributions of process 0; equivalences by composition; counterexamples for class and symmetry |
| C116 | Quantum ESPRESSO HDF5 wavefunctions and densities | QeH5Model: arguments as records of attributes, files as records; loop of loads as a fold with the store kept. Each coefficient: equality of sorted lists under NumPy closeness plus position bounds; refusal: a lexicographically sorted list starting with 0 has no negative member. |
| C117 | Occupied and empty bands | OccIdxModel: filters of positions over numbers-or-NaN; combined with the fixed and Fermi-Dirac theorems of C27 and C28. |
