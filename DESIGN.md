# Formal model of MPB: design

Source under study: `/repo` (NanoComp/mpb at the pinned commit), read as text only.
Prover: Rocq/Coq 8.16.1, files in `rocq/theories`, logical root `Verif`.

## Conventions

* `Base.v`, `RC.v`, `Loops.v` hold the common vocabulary: outcomes of C code, arrays, loops, sums, complex numbers.
  * `outcome A` = `Val a | Abort | UB | NonFin`. `Abort` is a failed `CHECK` (src/util/check.h, ends in `mpi_die`)
    or another documented refusal. `NonFin` is a real division by zero (or a root of a negative number): the C
    program carries on with an infinity or a not-a-number, the model stops.
    `UB` is undefined behaviour of the C program: out-of-range array access, division of an integer by zero,
    use of an uninitialised variable, infinite loop where fuel runs out is *not* folded into a normal value.
  * Array accesses in models that are about memory go through bounds-checked `rd`/`wr` which yield `UB`.
  * `for`-loops become `for_` (a fold over `0..n-1` in the outcome monad) or structural recursion.
* Each area has a model file `M_*.v` (definitions only, every definition cites file and lines), a specification
  file `S_*.v` (the vocabulary of the property statements, independent of the model's helpers), proof
  files `L_*.v`, and a property file `P_*.v` that contains only the property theorems,
  the non-vacuity `Example`s and `Print Assumptions`.
* `real`/`double` is modelled by Coq's `R` (exact arithmetic). Rounding, overflow, NaN are not modelled unless a
  property says so. `scalar_complex` is a pair of reals. `int` is `Z` or `nat` without overflow unless a property says so.
* The Scheme front end (mpb.scm.in) is modelled by Gallina functions on lists.
* A statement that is false of the faithful model is recorded as a theorem `..._refuted` together with a proved
  restricted statement `..._partial`; see the section "Findings".

## Trusted base

1. Coq's kernel (and `coqchk`).
2. Standard library axioms, as listed by `Print Assumptions` beneath each theorem: files over `R` depend on
   `ClassicalDedekindReals.sig_forall_dec`, `ClassicalDedekindReals.sig_not_dec` and
   `FunctionalExtensionality.functional_extensionality_dep`; some on `Classical_Prop.classic`; `C85_lapack` also on
   `IndefiniteDescription.constructive_indefinite_description`. Files over `nat`/`Z`/`N`/lists
   are axiom free. No axiom of our own.
3. The reading of the C and Scheme code: each definition cites the lines it models.
4. External code is not modelled: BLAS/LAPACK, FFTW, MPI, HDF5, libctl, Guile, NLopt. Where a property needs their
   behaviour it appears as an explicit hypothesis in the theorem (or the operation is given its mathematical
   definition, e.g. a discrete Fourier sum or a matrix product, and the definition says so).

## Plan per property

| Id | What is modelled | How it is proved |
|----|------------------|------------------|
| C01 | `maxwell_sym_matrix_invert` over Hermitian 3x3 of reals/complex, both branches, aliasing by sequential stores | field identities; Abort exactly on zero determinant; the diagonal branch lacks the check (finding) |
| C02 | `maxwell_sym_matrix_positive_definite` | Sylvester criterion for complex 3x3 by explicit completion of squares, both directions |
| C03 | `maxwell_rotation_matrix`, `maxwell_sym_matrix_rotate` | algebra with n.n=1 |
| C04 | Kottke part of `set_maxwell_dielectric` with arbitrary lists of samples | convexity of the tau-image of PD tensors: Schur complement; induction on samples; rotation + inversion preserve PD |
| C05 | same functions | tau^-1 o tau = id; direct computation |
| C06 | the 50-point table construction as lists of signed permutations of real triples | symbolic sums with sqrt |
| C07 | the m,n construction in `update_maxwell_data_k` | algebra with sqrt; case split |
| C08 | index arithmetic of `update_maxwell_data_k`, `set_planewave`, `dominant_planewave` in Z | lia/bijection lemmas; odd-size asymmetry finding |
| C09 | `LOOP_XYZ` variants as list of visited (coords, index) | NoDup/length/in-range by induction on sizes |
| C10,C11 | z/y parity constraints on fields as functions on indices | pointwise algebra + involution lemmas over finite sums |
| C12 | `set_maxwell_data_parity` in bits of nat | case analysis |
| C13 | `maxwell_operator` with the DFT as explicit kernel sums | adjointness of finite sums, cross product identities |
| C14 | batching loop | induction on fuel with invariants |
| C15,C16 | row-major arrays with bounds-checked accesses, in-place loops | loop invariants |
| C17 | block-size arithmetic, block loop of `solve_kpoint` | integer arithmetic, induction |
| C18 | in-place shifts of `solve_kpoint` at k=0 | loop invariants on arrays |
| C19 | const band functions | case analysis on parity, finite fields |
| C20 | `deflation_constraint` with matrix products as sums | algebra over finite sums |
| C21,C22 | `dcsrch`/`dcstep` as a state machine fed by arbitrary f,g | invariants over call histories |
| C23,C24,C39 | interpolation with floor/trunc | reals + Z floor lemmas; convex combination lemmas |
| C25,C53 | half-grid index maps | bijections on Z mod n |
| C26-C29 | Scheme functions on lists | induction |
| C30,C47 | string functions | induction on lists of characters |
| C31,C32 | file as function from coordinates, hyperslab selection, unrolled gather loop | arithmetic on row-major indices |
| C33-C35 | group arithmetic; token-passing transition system; communicator state machine | invariants over schedules |
| C36 | allocator state machine | invariants over histories |
| C37,C38,C51 | material grids as lists of real arrays | induction |
| C40 | gap and gradient | `derivable_pt_lim` |
| C41 | front-end field state machine | counterexample history (finding) and invariant under the guarded protocol |
| C42 | energy sums | finite sums |
| C43 | fix phase | trigonometric identities |
| C44 | index of the phase loop | counterexample for scalar fields (finding), proof for vector fields |
| C45,C46 | `map_data`, rectification | floor arithmetic, vector algebra |
| C48-C50 | direct algebra | findings |
| C52 | plan cache | invariant over histories |
| C54 | overlap sums | finite sums, permutation of the grid by the operation, Cauchy-Schwarz |
| C55 | convergence test | real arithmetic; finding for negative traces |
| C56 | mesh of sample points in a voxel | sums over the mesh |
| C57 | slice products | index arithmetic, finding |
| C58-C60 | dominant plane wave, pairing of frequencies, diffraction orders | arithmetic, findings |
| C61,C62 | default material grid, fresh gradients | counterexample; induction |
| C63 | approximate line minimization | algebra of the fitted sine |
| C64 | group velocities | derivative of the quadratic form |
| C65,C66 | targeted operator, preconditioners | algebra over finite sums |
| C67 | fields of normalized states | Parseval over finite sums |
| C68,C69 | line search exits and termination | invariant, contraction of the interval |
| C70-C73 | eigensolver: exact derivatives, falling trace, result, end of the run | matrix algebra over complex numbers of any size, derivative of an inverse, loop invariants, Poincare separation |
| C74,C75 | Davidson eigensolver | invariant on the blocks, Gram-Schmidt, Poincare separation between successive spaces; counterexample |
| C76 | find-k | invariant relating the table and the best guesses to the set of k calculated; induction on the search tree |
| C77 | overlaps and phases | loop invariant on the columns done; linearity of the inner product |
| C78 | bands at a k point | invariant over the blocks: the bands done are orthonormal and (with an exact solver) the lowest; the deflated constraint is a projection |
| C79 | bands of the Maxwell operator | the operator, metric and constraints are matrices (linear, Hermitian, commuting), so C78 applies; the result is read back as fields on the grid |
| C80 | mirror symmetric structures | the transverse vectors of opposite waves are mirror images up to sign; transforms commute with the mirror; the weak form is then invariant |
| C81 | runs of the solver that mix both line minimizations | the invariant of C71 to C73 with the mode as part of the state; timing left open |
| C82 | the squared, shifted operator and the diagonalization after it, block by block; distance from the target | the square of a Hermitian matrix minus t has the lowest modes nearest to t; invariant over blocks: the bands are a unitary combination of lowest modes of the square |
| C83 | a field is kind, letter, shape and values, given by a reference in a state; which objects a command spares | invariant on states over runs of commands; copy and map loops over an array that may be its own source |
| C84 | all modes of a structure as an orthonormal, complete set of fields; order of tensors as quadratic forms | k equations in k+1 unknowns (Poincare) with two operators; a diagonal operator for the uniform medium, the constant rows made large at k = 0 |
| C85 | the exact bands as an existential over fields; positive tensors; distance of tensors as quadratic forms | lowest mode as a supremum of lower bounds, attained because a positive definite form has a positive lower bound; induction on the number of modes; Ky Fan by weights; LAPACK routines chosen with indefinite description |
| C86 | conjugate fields as functions on the grid; band-limited fields by their amplitudes | the reversal as a signed permutation of amplitudes (g to -g), conjugated curls, the field determines its amplitudes (inverse transform); two points of vacuum for the refutation |
| C87 | a list of objects with a containment predicate, the last one containing the point, background, chains of material functions, the tensor a material stands for | case analysis of the search result; induction on the chain of calls |
| C88 | tensors expected at the points looked at; average with the weight and normal of the object on top | loop invariant: the first point is the first candidate and every point so far has the material of one of the two candidates; ids determine materials |
| C89 | entries of the represented Hermitian matrix | cases of the component |
| C90 | tensors conjugate at opposite points; the same amplitudes stored as reals and as complex numbers; which grid point each stored tensor is for | the array the real transform stands for is the conjugate-symmetric completion of the stored half; Hermitian symmetry of the position-space field of real amplitudes; conjugating the transform sum by reindexing with the opposite point |
| C91 | the modes of the real operator: orthonormal, no two coupled, ascending, complete among real fields with the symmetry | the matrices are real (C90), so the real or the imaginary part of a mode is one too; deflation keeps everything real; uniqueness from C85 |
| C92 | a process's share of a problem (slabs, its wave vectors, its tensors), a block divided among processes, FFTW's blocks | each step keeps, on every process, the values of the serial field at the points of its slab; both layouts; the operators then agree with C13's serial operators; the code's tables are shares |
| C93 | rows of a matrix, a block divided among processes, runs that end alike, operators that do the same | each statement of the solver keeps the correspondence of states, by induction over the iterations; the products are sums over processes; the Maxwell operators satisfy the hypotheses by C92 |
| C94 | mean square difference over all points, the file's interpolated value at a cell, derivative in a direction | induction over the loop with the derivative of the partial sum as invariant; one point by C39, the points of a half-stored grid by C25; a grid of three points for the refutation |
| C95 | eigenfields of the operator for each step along a direction, derivative of the root of the eigenvalue | the weak form C13 taken both ways gives (lam(t) - lam(0)) <H,Y(t)> as a sum over points of differences of 1/eps; derivative of a vanishing function times a continuous one; the code's loop by induction with C39 at each point, its |E|^2 by C67 |
| C96 | log of calls against the list of calls that each band function asks for (and an inductive relation for what is due) | induction over nested procedures with a relation between memories that keeps energies; list-split (C27) for the numbering across processes |
| C97 | derivative of sqrt(lam t) along k + t u for any family of eigenfields whose Cartesian amplitudes are continuous at 0 | weak form of C13 with Cartesian test fields (projected on the moved transverse basis, C07), Hellmann-Feynman quotient, linearity in u; link to the code's sum by C64's lemmas |
| C98 | value of each cell in terms of C23's interpolation at the cell centre, clipped; identity on save then load | loop invariants over the three loops, fractional part of (i + 1/2) s / n, C23 |
| C99 | entries of a matrix as a function of row and column (S_Eig); bands as in C16 | C16's slices, the gemm lemma of C70, loop invariants for the diagonal |
| C100 | v^+ m v of the result as C24's interpolation of v^+ t v over the grid | linearity of the weights in the nine stored numbers, C24; polarisation for equality at grid points |

## What is modelled, file by file

| Model | Source | Not modelled |
|-------|--------|--------------|
| M_Tensor | maxwell_eps.c: inversion, positive definiteness, rotation, Kottke averaging, mesh; epsilon.c: analytic average | rounding; the callback that finds the material at a point is an arbitrary function |
| M_Sphere | sphere-quad.c, maxwell_eps.c 337-400 | printing of the table as decimals |
| M_Scheme | mpb.scm.in: band ranges, gaps, chunks, factors, first Brillouin zone | Guile itself, printing |
| M_Data | utils/mpb-data.c map_data, add_cmplx_times_phase, handle_dataset, handle_cvector_dataset, handle_file and the phase option of main; matrixio.c reading of datasets and attributes as these use them | libctl's vector and matrix functions are taken as the mathematical ones; int overflow, lengths of name buffers, printing of extrema, memory leaks and rounding not modelled |
| M_Trans | mpb/transform.c transformed_overlap, compute_symmetry | complex fields and one process (the code refuses the others); messages; the determinant and inverse of libctl are taken as the mathematical ones |
| M_Names | matrixio.c add_fname_suffix, mpb-data.c split_fname | |
| M_Util | mpi_utils.c/.h groups, communicators, critical sections; util's debugging allocator | MPI itself (messages are queues) |
| M_Evect | evectmatrix.c, sqmatrix.c, blasglue.c gemm wrapper; mpb.c block loop, shifts at k=0, deflation | LAPACK; BLAS gemm is its mathematical definition |
| M_Grid | maxwell.c plane-wave table, xyz_loop.h, maxwell_constraints.c, mpb.c set_parity | |
| M_Op, M_Gv | maxwell_op.c, maxwell_pre.c, mpb.c group velocities | real-field (half-complex) transforms are in M_Real, several processes in M_Mpi; FFT is the discrete Fourier sum |
| M_Plan | maxwell_op.c 168-283, maxwell.c 254-258 | FFTW2 branch |
| M_Interp, M_Matgrid, M_Opt | epsilon_file.c, fields.c point values, material_grid.c, material_grid_opt.c | NLopt |
| M_Conv, M_Lin | eigensolver.c and eigensolver_davidson.c control, linmin.c, minpack2-linmin.c | timing-based choices are arbitrary |
| M_Eig | eigensolver.c trace_func and eigensolver_lagrange (exact line minimization, no Lagrange operator, no first orthonormalization, no orthogonal preconditioner), eigensolver_utils.c 32-46, the sqmatrix.c and evectmatrix.c routines these use | approximate line minimization (see M_Apx); the restart with random fields ends the model's run; a trial angle at which trace_func stops the program has value zero; contracts of the operators and of LAPACK are the hypotheses `solver_ok`, `potr_ok`, `heev_ok` |
| M_Apx | eigensolver.c 313-314, 565-645, 756-793: the approximate line minimization and the choice between the two | the comparison of times is an arbitrary function of the iteration; no Lagrange operator; an infinite theta in forced mode counts as not a number |
| M_Dav | eigensolver_davidson.c, with XtY_sub, copy_upper2full and XpaY_diag_real | messages; several processes; rounding; contracts of the operators and of LAPACK are the hypotheses `davidson_ok` |
| M_Findk | find-k of mpb.scm.in; run-parity reduced to the calls of solve-kpoint | find-root-deriv (libctl) is an arbitrary finite search; printing; Guile numbers are reals |
| M_Ovl | dot_eigenvectors and sqmatrix_ref of matrix-smob.c, fix-phase-consistency of mpb.scm.in | smob allocation and garbage collection; angle and make-polar of Guile as exact atan2, cos, sin |
| M_Kpt | solve_kpoint and the allocation in init_params of mpb.c, constraint chains of eigensolver_utils.c | one process; no target frequency (see M_Tgt); the solver is a parameter, instantiated by M_Apx and M_Dav; printing, iteration counts and the scratch arrays W left out |
| M_Mx | what solve_kpoint passes to the solvers: mpb.c 680-766 | one process, complex fields; scratch arrays made on the spot |
| M_Tgt | target operator and preconditioners of maxwell_op.c and maxwell_pre.c, eigensolver_get_eigenvals of eigensolver_utils.c, solve_kpoint of mpb.c with mtdata | one process; a failed inversion in eigensolver_get_eigenvals (its result is ignored there) is an undefined outcome; the checks of work arrays left out |
| M_Half | epsilon.c get_epsilon, fields.c compute_field_integral, field-smob.c integrate_fieldL, material_grid.c addgradient loop, on whole and half-stored grids | the user's function is an arbitrary pure function |
| M_Out | matrixio.c write/read of real data, evectmatrixio.c, fieldio.c, maxwell_op.c 637-1175 (the other half of a half-stored field), fields.c output layout | HDF5 is a map from positions to numbers; file names, attributes, descriptions |
| M_Cur, M_Fld, M_Pha | mpb.c/fields.c current field, fields, energies, phases, divergence, matrix-smob.c scaling | several processes, except where a theorem says so |
| M_Fob | field-smob.c (all but integration and printing), get-poynting, get-tot-pwr, field-copy of mpb.scm.in, get-epsilon and get-mu as loads | one process; allocation and clearing in one step; the user's function is any partial function of the values (it does not itself call field commands); printed statistics left out |
| M_Med | mpb/epsilon.c 22-407 and 501-562 (and mu.c, made from it), mpb/medium.c 44-113: material_epsilon, epsilon_func, mean_epsilon_func, get_epsilon_tensor, variable_material, has_mu | libctl's unit cell, search, equality, normals and overlap, the Scheme functions and matgrid_val are functions given from outside; searches states what is assumed of the search; meps_inv, freeing and the debug check are left out |
| M_Real | src/maxwell/maxwell_op.c with SCALAR_COMPLEX undefined: fft, d from H, e from d, H from e, operator, muinv; the sizes of maxwell.c 60-90 | serial; FFTW's r2c and c2r by their documented definition; reals for floating point |
| M_Mpi | maxwell_op.c and maxwell_pre.c with HAVE_MPI, complex scalars, FFTW3: fft, operator, muinv, u x k, preconditioner; the shapes of maxwell.c 121-155 | FFTW's distributed transform by its documented definition; processes advance together between collective calls; real scalars in parallel; FFTW2 |
| M_Pcg, M_Pmx | eigensolver.c and evectmatrix.c on several processes; the functions of mpb.c 680-766 for them | the replicated values are written once (mpi_assert_equal checks that processes agree); the simple preconditioner, deflation, Davidson in parallel |
| M_Match | material_grid.c match_eps_func | tree search and reset_epsilon are given by functions; the printed line and the counter |
| M_Fgrad | material_grid.c material_grids_addgradient for band >= 1 | complex fields, one process; band 0 and the printing functions are not modelled |
| M_Band | mpb.scm.in run-parity (the parts that M_Scheme leaves out), apply-band-func, output-dpwr-in-objects, combine-band-functions, output-at-kpoint | procedures by construction, externals arbitrary; Guile's map taken from left to right |
| M_Vel | mpb.c compute_1_group_velocity_component, compute_1_group_velocity, compute_1_group_velocity_reciprocal; medium.c lattice and reciprocal vectors | libctl's vector functions after their documentation; work space given for each call; reading the uninitialised result is UB |
| M_Load | material_grid.c synchronize_material_grid, save_material_grid, load_material_gridB; matrixio.c matrixio_read_real_data with data == NULL | HDF5 and the write as one step; failure to create the file and access to the Scheme array not modelled |
| M_Smob | matrix-smob.c sqmatrix2scm, sqmatrix_set, sqmatrix_mult, sqmatrix_diagm, evectmatrix_slice2scm, get_eigenvectors, set_eigenvectors | one process, complex build, allocN == localN; Guile's types and garbage collection not modelled; new memory holds an arbitrary number |
| M_Pnt | fields.c interp_eps_inv, get_epsilon_inverse_tensor_point, get_epsilon_point, complex scalar and stored vector fields at a point | complex fields, one process; make_hermitian_cmatrix3x3 of libctl after its name; eigenvalues by LAPACK assumed (eigs_of) |

Not modelled at all: LAPACK/BLAS/FFTW/MPI/HDF5/libctl/Guile/NLopt, build system, command line parsing of mpb-data and
mpb, printing.

## Findings

Each is a theorem named `..._refuted` (or as given), with the concrete input.

1. **C01** a singular *diagonal* tensor is not rejected: the diagonal branch divides by zero (`C01_singular_rejected_refuted`).
2. **C04** mesh sizes below one are documented as one but the loops use the raw values: no sample is taken and the tensor is not positive definite (`C04_smoothing_refuted`).
3. **C11** parities are not bounded by one: the norm counts only one of each mirrored pair; a normalized band can report 4/3 (`C11_bound_refuted`).
4. **C17** num-bands 0 with a negative block size divides by zero (`C17_no_bands_refuted`).
5. **C22/C68** dcsrch's exit at the largest step is not the best point found, contrary to its comment (`C68_best_refuted`); with a positive lower bound the exit at that bound can lie above the start (`C68_refuted`).
6. **C69** linmin never returns from a first guess of zero (`C69_zero_refuted`; eigensolver.c 708, 718 pass |prev_theta|, which is zero after a step of zero), nor, for some functions, when f_tol > df_tol (`C69_order_refuted`; the eigensolver uses 0.1 and at most 1e-6; safe for functions with the period of the bounds, `C69_smooth_partial`).
7. **C23** epsilon files: points above 1 are reflected the wrong way (`C23_mirror_above_refuted`), far enough out the array is left (`C23_overrun_refuted`), and the periodic file function jumps at the cell boundary (`C23_file_continuity_refuted`).
8. **C26** with num-bands 0 the gap list of an earlier run is kept (`C26_stale_gaps_refuted`).
9. **C29** the reduced k-point need not lie in the first Brillouin zone of a skewed lattice (`C29_first_bz_refuted`).
10. **C30** a name like run.h5.old.h5 gets a second suffix (`C30_suffix_twice_refuted`).
11. **C33** builds without MPI refuse one group and accept any other number (`C33_serial_refuted`).
12. **C34** critical sections with different tags do not exclude each other (`C34_exclusion_across_sections_refuted`).
13. **C35** nested global phases lose the group communicator (`C35_nested_refuted`, `C35_divide_in_global_refuted`).
14. **C36** the debugging allocator misses some double frees (`C36_undetected_refuted`).
15. **C39** the product rule for overlapping grids is 0/0 at a zero value (`C39_product_zero_refuted`).
16. **C40** the TE/TM difference optimization clears two entries too few, computes a negative memset size with one parameter, and accepts band 0 (`C40_difference_refuted`, `C40_single_refuted`, `C40_band_refuted`).
17. **C41** current field: a refused get-efield converts another band's field; field-load keeps the old band number (band 0: out of range); dot-eigenvectors with mu overwrites the field; compute-field-squared continues after its error (`C41_*_refuted`).
18. **C42** both limits of a dielectric range belong to it; component fractions can be negative; with real fields the weight of points in objects is decided by an unset variable (`C42_*_refuted`).
19. **C43** the canonical phase is not canonical for circularly polarized fields; over several processes an index offset lacks a factor of three; real builds skip fields with equal real and imaginary parts (`C43_*_refuted`).
20. **C48** compute-field-divergence: a wrong component in the reconstructed vector, and in real builds a table read past its end (`C48_refuted`, `C48_real_refuted`).
21. **C49** scale-eigenvector in real builds accepts imaginary factors and erases the band (`C49_real_refuted`).
22. **C50** evectmatrix_aXpbY with equal arguments, which its comment allows, gives a(1+b)X (`C50_aliased_refuted`).
23. **C51** material grid noise above 1 wraps instead of reflecting (`C51_reflection_refuted`).
24. **C52** the plan lookup ignores whether input and output coincide (`C52_placed_refuted`).
25. **C55** negative traces never converge in the main solver (`C55_negative_refuted`).
26. **C57** XtY_slice2 does not check its column offset (`C57_offset_unchecked_refuted`).
27. **C58** a global rank is used as broadcast root within a group; a process without plane waves reads past its table (`C58_*_refuted`).
28. **C59** odd grid sizes: G and -G are not both present (`C59_odd_refuted`).
29. **C60** diffraction orders outside the grid are aliased silently (`C60_order_refuted`).
30. **C61** parameters of the default material grid beyond the middle have no effect (`C61_default_grid_refuted`).
31. **C63** the approximate line minimization takes an uphill trial step and keeps it when forced (`C63_*_refuted`).
32. **C64** with mu a single block of group velocities overwrites the eigenvectors; more than 20 bands overflow the transform array (`C64_*_refuted`).
33. **C25** in builds with inversion symmetry: integrate-fieldL hands complex scalar fields unconjugated to the mirrored point (`C25_integral_refuted`); compute-field-integral and the material grid gradient decide which points to count twice by a variable nothing assigns (`C25_field_integral_refuted`, `C25_addgradient_refuted`: wrong for every value it may hold).
34. **C44** complex scalar fields are multiplied by the phases of other points: the loop treats the array as three numbers per point (fieldio.c 95-105), so only k = 0 comes out right (`C44_cscalar_refuted`).
35. **C53** in parallel half-stored builds a process without a share asks for a negative number of points in two dimensions and divides by zero in three (`C53_idle2_refuted`, `C53_idle3_refuted`).
36. **C45** mpb-data with an even number of copies of an odd grid shifts by half a point and so interpolates between cells; with the phase -1 the data vanishes (`C45_copies_refuted`).
37. **C45** `-m` with two-dimensional data multiplies the third direction too, which the data does not have: with kz = 1/2 the output is zero (`C45_flat_copies_refuted`).
38. **C45** `-T` on one-dimensional data writes one number only: the sizes are exchanged before the rank cuts them (`C45_transpose_refuted`).
39. **C45** for a file without attributes `rank` is compared before anything has set it (mpb-data.c 581-586, `C45_attributes_refuted`).
40. **C46** `-e` with a direction in the plane through the ends of the lattice vectors divides by zero, and the first axis of the output may be opposite to the direction (`C46_refuted`, `C46_direction_refuted`).
41. **C71** started from exact eigenvectors without a preconditioner the eigensolver divides the direction, zero, by its norm and stops with "converged out of bounds" (eigensolver.c 648-657, `C71_exact_start`, `C71_finite_refuted`).
42. **C73** the convergence test multiplies the tolerance by E + prev_E + 1e-7 (eigensolver.c 421-423), so a trace that stays below -0.5e-7 never counts as converged; the bound on the iterations is for semidefinite operators. prev_theta is passed through atan although it already is an angle when the exact line minimization was used (786-791), which only changes a first guess.
43. **C54** without a medium kept by the operation the symmetry overlap can exceed the energy (`C54_asymmetric_medium_refuted`).
44. **C74** the Davidson solver does not test for convergence in its first iteration, so started with exact modes (for instance those of an earlier run) it has no new direction and stops with "non-independent AV subspace" (eigensolver_davidson.c 163-169, 216-219, `C74_exact_start`); for the same reason it never succeeds for p bands if there are fewer than 2p modes (`C74_small`).
45. **C75** the window around the target stops at a tie, so with p+1 equal values nearer ones are not reached (eigensolver_davidson.c 131-136, `C75_nearest_refuted`; mpb.c always passes the target 0, for which the lowest values are kept).
46. **C76** find-k sets k-points to a single k and calls run-parity, which splits the k points according to k-split-num and k-split-index: with k-split-index > 0 the chunk is empty, nothing is solved, and find-k goes on with the frequencies and fields left by an earlier calculation (`C76_split_refuted`).
47. **C77** dot_eigenvectors transforms W[0].alloc_p bands at once with the permeability, without the limit max_fft_bands used everywhere else, so with eigensolver-block-size or num-bands above 20 the transform array is overrun (matrix-smob.c 310-318, `C77_scratch_refuted`).
48. **C78** init_params keeps the arrays if sizes and nwork + (mdata->mu_inv != NULL) agree, but looks at the old mdata->mu_inv; when a structure without permeability is followed by one with it and block size < num-bands, muinvH stays H and bands of different blocks are not orthogonal in the metric (mpb.c 443-446, 497-503; `C78_stale_refuted`).
49. **C78** nwork is limited to MAX_NWORK = 10 and then raised by one for the permeability; W[10] is then written (medium.c 179-183, mpb.c 243, 487-490; `C78_nwork_refuted`; fine up to 9).
50. **C78** At k = 0 with inhomogeneous permeability the deflation is followed by the removal of the constant part, which does not commute with the metric: the constraint of a later block leaves fields that overlap with the bands before (mpb.c 680-706; `C78_zero_k_mu_refuted`).
51. **C80** The frequency table of a dimension holds -n/2 but not n/2 (n even), or -(n+1)/2 and -(n-1)/2 but not their opposites (n odd, since n/2 is rounded down); the mirror flip pairs such a wave with itself or with the wrong one. In a mirror symmetric structure the operator therefore takes fields of one parity out of it (maxwell.c 424, 444-448; maxwell_constraints.c; `C80_refuted`); without those waves, and with one point across the plane, it does not (`C80_decoupled`, `C80_flat`).
52. **C81** When the approximate line minimization gives up, Y is shifted back but U still holds the inverse of Y^+ B Y for the shifted fields; the exact line minimization then computes dE and d2E with it (eigensolver.c 595-600, 633, 665-681), so linmin is given a slope that is not that of the function it minimizes (`C81_slope_refuted`: 192/125 for 48/25). The trace still does not rise (`C81_step`).
53. **C81** With EIGS_FORCE_APPROX_LINMIN a run can end with a trace above that of the fields it was given (`C81_falling_refuted`; the step of finding 31 in a whole run).
54. **C82** target-freq: the documentation promises the states with the smallest |frequency - target| (Scheme_User_Interface.md 52); the operator (M - w^2)^2 orders by the squared frequency. With modes at 1 and sqrt 3 and target 7/5, the state at 1 is found (`C82_closest_refuted`; maxwell_op.c 1255-1282). Only modes above the target are affected, when the band is below it (`C82_sides`).
55. **C82** The frequencies of the targeted solver are ascending within a block only; blocks come in the order of their distance from the target (`C82_order_refuted`, `C82_modes`; mpb.c 735-736). What uses them as ascending (band gaps, retrieve-gap, parity output per band) is then off.
56. **C82** If two modes are equally far from the squared target, the square of the operator does not tell them apart; the final diagonalization (mpb.c 731-736) is within the block only, so that a block that ends between the two holds a mixture whose frequency, the target itself in the example, is that of no mode (`C82_mixed_refuted`).
57. eigensolver_get_eigenvals ignores the result of sqmatrix_invert (eigensolver_utils.c 59); the other callers stop.
58. **C83** get-mu loads a field with the letter 'm' (medium.c 73), which update_curfield_smob does not know ("DHBnR", field-smob.c 146; fields.c 1211 has "DHBnmR"): every field object command refuses cur-field after get-mu (`C83_mu_refused`, `C83_mu_refuted`).
59. **C83** cvector-field-nonbloch! does not check that its argument is a vector field (field-smob.c 243-249): a scalar object gets the letter 'v', and once loaded is a vector field six times as long as its data (`C83_nonbloch_refuted`).
60. **C83** get-poynting (mpb.scm.in 753-760) does not notice that get-efield and get-hfield refuse the band: the result, marked as a Poynting vector, is conj(F) x F of the field loaded before (`C83_band_refuted`).
61. cscalar-field-make is documented (Scheme_User_Interface.md 729) but mpb.scm.in 265-278 does not export it. field-map! with a single source of another kind keeps the old letter of the destination (field-smob.c 374-387; `map_letter`), so that a function of a Bloch field can keep the letter of a periodic one.
62. **C86** The frequencies at k and -k differ. The table of a dimension of n > 1 points has the frequency -n/2 but not n/2 (for odd n the frequencies -(n+1)/2 ... (n-3)/2; maxwell.c 443-452), so the basis at -k is not the reversed basis at k. In vacuum on two points with k = 1/4 the exact squared frequencies are 1/16 and 25/16, at k = -1/4 they are 1/16 and 9/16 (C86_refuted). For bands with nothing at the outermost frequencies the frequencies agree (C86_bands_partial).
63. **C87** A material function that returns nothing stops the program (epsilon.c 79-81), although the manual says it can return any material, and nothing is accepted for objects, where it means the background; nothing as default material stops it too (C87_function_nothing_refuted). The loop over material functions has no bound (Example C87_function_loop).
64. **C87** has_mu (medium.c 102-113) says of a material function that it has no permeability. A structure whose only magnetic material comes from a function is therefore computed with mu = 1, without a message, unless force-mu? is set (C87_no_mu_refuted).
65. **C88** With an epsilon input file, if an object has the default material, mean_epsilon_func can replace the candidate 'background' by a third object (251-258), and the test for a file (274-281) then sees two ordinary objects: the averaged tensor ignores the part of the pixel that belongs to the file (C88_file_refuted).
66. **C88** The weight is the overlap of the pixel with the object on top of the two candidates. A third object on top of both, made of the lower material, passes the test (259-262) but is not subtracted: 12 filling the middle half of a pixel in 1, as a wall covering 3/4 cut by a slab of 1 later in the list, gets the weight 3/4 (C88_fraction_refuted).
67. **C90** The manual says that a structure given to mpbi always ends up with the symmetry, the other half being inferred. Points of the first plane of the last dimension, and of the middle one, have their opposite point in the stored half too: nothing is inferred there, and nothing tests it, the test in maxwell_eps.c 602 being disabled by `&& 0` (C90_infers has the condition, C90_needs_symmetry shows that the answers differ from those for the given structure).
68. **match_eps_func in builds with inversion symmetry** (material_grid.c 937-971): for the opposite point eps0 is interpolated again and the value uses it, but scalegrad is not recomputed, so the gradient is that of another function unless the file's values at the cells i and n-i agree; for the file 1, 2, 1 on three points the returned derivative has the wrong sign (C94_gradient_half_refuted). A file that is symmetric about its centre does not help, as the cells i and n-i are not mirror images about the centre of the file.
69. **C96** randomize-fields? (mpb.scm.in 612-614): the run puts randomize-fields first among the band functions, so it runs after the k point is solved and before the user's band functions, which then output random fields (C96_randomized_refuted). Appending it would have randomized the start of the next k point and left the output right.
70. **C96** output-dpwr-in-objects with a procedure of no arguments (mpb.scm.in 792-813): it is called only when band 1 has the energy, whatever the other bands have (C96_thunk_in_objects_refuted).
71. **C97** compute_1_group_velocity_component (mpb.c 954-965): called before init-params or solve-kpoint it prints an error and returns the uninitialised variable group_v; compute_1_group_velocity and the reciprocal version do so three times (C97_unsolved_refuted).
72. **C99** set-eigenvectors (matrix-smob.c 276-284, evectmatrix.c 45-61) compares only the number of plane waves: eigenvectors of a grid with other sizes but as many points are accepted and land on other plane waves (C99_other_grid_refuted).
73. **C100** cvector-field-get-point (fields.c 804-832) uses cur_kvector, the k point solved last: the values of a field stored before another k point is solved change their phase (C100_stored_refuted). cscalar-field-get-point (842-862) does the same.
