{"id": "C01", "title": "Inverting a dielectric tensor yields the true inverse", "statement": "For every Hermitian 3x3 tensor that the inversion routine accepts, the result is Hermitian and its product with the input (in either order) is the identity, whether or not the result is stored over the input; a singular tensor is rejected with a fatal error rather than silently turned into a wrong tensor.", "quantifier": "every Hermitian (complex off-diagonal) 3x3 matrix, in place or not", "why_tests_cant": "A test inverts a handful of matrices; the claim is an algebraic identity over a 9-parameter continuum including every branch (diagonal, full) and the singular surface.", "anchors": ["src/maxwell/maxwell_eps.c: maxwell_sym_matrix_invert"]}
{"id": "C02", "title": "The positive-definiteness test is exact", "statement": "The library reports a Hermitian tensor as positive definite exactly when x*Ax > 0 for every nonzero complex vector x.", "quantifier": "every Hermitian 3x3 tensor and every complex 3-vector", "why_tests_cant": "The definition quantifies over all vectors x; no sample of vectors can establish definiteness nor the equivalence with a three-minor test.", "anchors": ["src/maxwell/maxwell_eps.c: maxwell_sym_matrix_positive_definite"]}
{"id": "C03", "title": "Rotating a tensor to interface coordinates and back loses nothing", "statement": "For every unit normal the rotation built from it is orthonormal and right handed with the normal as first axis, rotating a tensor forwards and then backwards returns the original tensor, and rotation keeps the tensor Hermitian and keeps its positive definiteness.", "quantifier": "every unit 3-vector and every Hermitian tensor", "why_tests_cant": "Ranges over the whole sphere of normals with a branch on which component is dominant, and over all tensors.", "anchors": ["src/maxwell/maxwell_eps.c: maxwell_rotation_matrix, maxwell_sym_matrix_rotate"]}
{"id": "C04", "title": "Subpixel smoothing never manufactures a non-physical material", "statement": "If every tensor the user's material function returns is positive definite, then the smoothed inverse tensor stored at every grid point is positive definite, for whatever mixture of materials, mesh size and interface normal occurs there; hence the dielectric check on the produced data never reports a non-positive-definite material.", "quantifier": "every list of positive-definite samples of any length, every normal, every fill fraction", "why_tests_cant": "The averaged tensor is a nonlinear function (tau transform and its inverse) of unboundedly many samples; tests see particular interfaces only.", "anchors": ["src/maxwell/maxwell_eps.c: set_maxwell_dielectric, check_maxwell_dielectric", "mpb/epsilon.c: mean_epsilon_func"]}
{"id": "C05", "title": "Smoothing is the identity on uniform material and obeys the interface averages", "statement": "Averaging any number of samples of one and the same tensor returns that tensor whatever normal is used; for two isotropic materials the effective tensor is the arithmetic mean along the interface and the harmonic mean across it.", "quantifier": "every tensor, every normal, every number of samples, every pair of isotropic materials and fill fraction", "why_tests_cant": "An identity over a continuum of tensors and normals and over unbounded sample counts.", "anchors": ["src/maxwell/maxwell_eps.c: set_maxwell_dielectric", "mpb/epsilon.c: mean_epsilon_func"]}
{"id": "C06", "title": "The spherical quadrature rule is a genuine averaging rule", "statement": "The three-dimensional 50-point rule has all points on the unit sphere, weights summing to one, vanishing odd moments and second moments equal to one third of the identity, so a constant field yields zero normal and any linear variation of the material yields a normal exactly along its gradient.", "quantifier": "every constant or linear material variation over the sphere", "why_tests_cant": "The normal direction must be right for every gradient direction; testing samples directions and floating point hides structural errors in weights.", "anchors": ["src/util/sphere-quad.c: spherical_quadrature_points", "src/maxwell/maxwell_eps.c: set_maxwell_dielectric"]}
{"id": "C07", "title": "Every plane wave gets an orthonormal transverse basis", "statement": "For every wave vector k and every reciprocal lattice vector G the two polarization vectors attached to k+G are unit vectors orthogonal to k+G and to each other and form a right-handed triple with its direction; at k+G=0 they are the fixed y and z axes.", "quantifier": "every k, every G, every lattice, including k+G parallel to the z axis and k+G=0", "why_tests_cant": "Case split at degenerate directions and a continuum of wave vectors.", "anchors": ["src/maxwell/maxwell.c: update_maxwell_data_k"]}
{"id": "C08", "title": "The plane-wave table is a bijection onto the frequency set", "statement": "Each reciprocal lattice index of the grid's frequency set occurs at exactly one position of the plane-wave table, the conversion from a table position to its G index and from a G index to its table position are mutually inverse, and on even grids the set is the centred window [-n/2, n/2).", "quantifier": "every grid size and every position", "why_tests_cant": "Universally quantified over grid sizes and all positions; off-by-one errors only show on particular parities of n.", "anchors": ["src/maxwell/maxwell.c: update_maxwell_data_k, maxwell_set_planewave, maxwell_dominant_planewave"]}
{"id": "C09", "title": "Loops over a grid visit each stored point once, at the right coordinates", "statement": "The grid-loop macro visits every stored point of a (full or half) grid exactly once and the linear index it hands to the body is in range and distinct for distinct coordinates.", "quantifier": "every grid size, both storage layouts", "why_tests_cant": "All sizes and layouts; out-of-range or duplicate visits corrupt results only for particular sizes.", "anchors": ["src/maxwell/xyz_loop.h: LOOP_XYZ"]}
{"id": "C10", "title": "Parity constraints are orthogonal projections", "statement": "The z and y mirror constraints applied to any field are idempotent and self-adjoint, the even and odd projections are complementary (they sum to the identity and annihilate one another), and the y and z projections commute.", "quantifier": "every field, every grid size, every combination of parities", "why_tests_cant": "Universal over field contents and grid sizes (self-mirrored planes 0 and n/2 behave differently).", "anchors": ["src/maxwell/maxwell_constraints.c: maxwell_parity_constraint, maxwell_zparity_constraint, maxwell_yparity_constraint"]}
{"id": "C11", "title": "Reported parities of a projected field are +1 or -1", "statement": "The z (y) parity reported for a normalized band that satisfies the even (odd) constraint is exactly +1 (-1), and in general the reported value lies in [-1,1] for a normalized band.", "quantifier": "every normalized field on every grid size", "why_tests_cant": "Quantifies over all fields.", "anchors": ["src/maxwell/maxwell_constraints.c: maxwell_zparity, maxwell_yparity"]}
{"id": "C12", "title": "Requested parity is reduced to a satisfiable one", "statement": "Whatever parity bits are requested and whatever k is, the parity in force never contains both even and odd for one axis, never constrains an axis along which k is nonzero, changes nothing else, and applying the rule again changes nothing.", "quantifier": "every parity request and every k", "why_tests_cant": "Every bit combination with every k sign pattern; a state-machine property over repeated requests.", "anchors": ["src/maxwell/maxwell.c: set_maxwell_data_parity", "mpb/mpb.c: set_parity"]}
{"id": "C13", "title": "The discretized Maxwell operator is Hermitian and nonnegative", "statement": "With Hermitian inverse tensors at every grid point the operator the eigensolver is given satisfies <X,AY> = <AX,Y> for all fields, and with positive semidefinite inverse tensors <X,AX> >= 0, so all computed eigenvalues are real and nonnegative.", "quantifier": "every pair of fields, every grid, every k, every tensor field", "why_tests_cant": "A statement about all pairs of fields; a sampled test cannot show an operator is self-adjoint.", "anchors": ["src/maxwell/maxwell_op.c: maxwell_operator, maxwell_compute_d_from_H, maxwell_compute_e_from_d, maxwell_compute_H_from_e"]}
{"id": "C14", "title": "Results do not depend on how bands are batched for the FFT", "statement": "Applying the operator to a set of bands gives for each band the same output whatever positive number of bands is transformed at a time, and every band is processed exactly once.", "quantifier": "every number of bands and every positive batch size", "why_tests_cant": "All combinations of counts and batch sizes, including a last partial batch.", "anchors": ["src/maxwell/maxwell_op.c: maxwell_operator, maxwell_muinv_operator", "src/maxwell/maxwell.c: maxwell_set_num_bands"]}
{"id": "C15", "title": "Resizing a block of bands keeps the retained bands", "statement": "Shrinking or growing the active number of bands in place keeps, for every plane wave and component, the value of each band present both before and after, and growing beyond the allocation is refused.", "quantifier": "every matrix shape, every old and new band count", "why_tests_cant": "In-place overlapping moves are order sensitive; correctness for all shapes needs a loop invariant.", "anchors": ["src/matrices/evectmatrix.c: evectmatrix_resize", "src/matrices/sqmatrix.c: sqmatrix_resize"]}
{"id": "C16", "title": "Copying a slice of bands copies exactly that slice", "statement": "Copying bands [iy,iy+p) of one matrix into bands [ix,ix+p) of another changes exactly those bands of the destination, gives them the source values, and an out-of-range request is refused without touching memory.", "quantifier": "all shapes, offsets and counts", "why_tests_cant": "Three implementation paths (whole, strided) and arbitrary strides.", "anchors": ["src/matrices/evectmatrix.c: evectmatrix_copy_slice"]}
{"id": "C17", "title": "Bands are divided into solver blocks that cover each band exactly once", "statement": "For every number of bands and block-size setting (positive or negative) the blocks the solver iterates over are nonempty, no larger than the allocated block, consecutive, and cover every band to be computed exactly once, whatever number of constant bands is handled separately.", "quantifier": "all band counts, block-size settings and counts of constant bands", "why_tests_cant": "Integer ceiling arithmetic over all settings; a single uncovered or doubly covered band only appears for particular sizes.", "anchors": ["mpb/mpb.c: init_params, solve_kpoint"]}
{"id": "C18", "title": "At k=0 the constant bands are set apart without disturbing the other bands", "statement": "Solving at k=0 moves the nonconstant bands aside and back: after the solve the first bands are the zero-frequency constant states, the remaining bands are exactly the solver's results in order, no band is lost or duplicated, and sizes are restored.", "quantifier": "all matrix shapes, all band counts, all numbers of constant bands", "why_tests_cant": "In-place overlapping shifts with a changing row length; correctness for all shapes.", "anchors": ["mpb/mpb.c: solve_kpoint"]}
{"id": "C19", "title": "The number of constant bands matches the parity", "statement": "At k=0 the number of zero-frequency constant states the solver assumes equals the dimension of the space of constant fields compatible with the current parity constraints, these states are orthonormal and unchanged by the constraints, and the zero-k constraint removes exactly their span.", "quantifier": "every parity combination and every field", "why_tests_cant": "Needs agreement between four pieces of code for all parities and all fields.", "anchors": ["src/maxwell/maxwell_constraints.c: maxwell_zero_k_num_const_bands, maxwell_zero_k_set_const_bands, maxwell_zero_k_constraint"]}
{"id": "C20", "title": "Deflation removes exactly the already-computed bands", "statement": "If the already-computed bands are B-orthonormal, the deflation constraint makes every field B-orthogonal to them, leaves fields already orthogonal unchanged, and is idempotent.", "quantifier": "every set of orthonormal bands, every block of fields", "why_tests_cant": "Universal over fields and number of bands.", "anchors": ["mpb/mpb.c: deflation_constraint"]}
{"id": "C21", "title": "The line search only reports success at a point satisfying both search conditions", "statement": "Whenever the line search announces convergence, the accepted step satisfies the sufficient-decrease and curvature conditions for the requested tolerances relative to the values at the start of the search, whatever function values it was fed.", "quantifier": "every sequence of function/derivative values returned by the objective, any number of calls", "why_tests_cant": "Ranges over all objective behaviours and arbitrarily long reverse-communication histories.", "anchors": ["src/matrices/minpack2-linmin.c: dcsrch", "src/matrices/linmin.c: linmin"]}
{"id": "C22", "title": "The line search keeps its best point and stays within the step bounds", "statement": "Throughout any line search the remembered best step's function value (relative to the decrease line in the first stage) never increases, and every trial step offered to the caller is within the user's minimum and maximum step or is the remembered best step.", "quantifier": "every objective, every history of calls", "why_tests_cant": "Invariant over unbounded histories and all floating-point case splits.", "anchors": ["src/matrices/minpack2-linmin.c: dcsrch, dcstep"]}
{"id": "C23", "title": "File-driven dielectric values are interpolations of the file's values", "statement": "For every point of the unit cell the value taken from an input file (or a material grid) is a convex combination of neighbouring file values at in-range indices, equals the file value at a pixel centre, and is continuous under the documented mirror extension.", "quantifier": "every grid size, every data array, every point", "why_tests_cant": "Index arithmetic near the boundary for every size, and a continuum of points.", "anchors": ["mpb/epsilon_file.c: linear_interpolate, epsilon_file_func"]}
{"id": "C24", "title": "Field values at a point are periodic interpolations of grid values", "statement": "For every point in space the interpolated field value uses only in-range grid values, is a convex combination of them, agrees with the stored value at grid points, and is unchanged when the point is moved by a lattice vector (apart from the Bloch phase).", "quantifier": "every grid size, every point, every lattice vector", "why_tests_cant": "Index wrap-around for all sizes including n=1 and all points.", "anchors": ["mpb/fields.c: interp_val, get_val"]}
{"id": "C25", "title": "Half-stored fields represent each logical grid point once", "statement": "In builds with inversion symmetry, where only part of the grid is stored, the stored points together with their mirrored partners enumerate every logical grid point exactly once, so sums with the code's weights equal full-grid sums.", "quantifier": "every grid size in one, two and three dimensions, odd and even", "why_tests_cant": "Special handling of index 0 and n/2; must hold for all sizes.", "anchors": ["mpb/epsilon.c: get_epsilon", "mpb/fields.c: compute_field_energy_internal, compute_energy_in_dielectric, compute_field_integral", "src/maxwell/maxwell_op.c: maxwell_vectorfield_otherhalf"]}
{"id": "C26", "title": "Band ranges and gaps are exact summaries of the computed frequencies", "statement": "After any run, the reported range of each band is the minimum and maximum over the k points of that band's frequencies, attained at the reported k points; a gap is reported between consecutive bands exactly when the lower band's maximum lies below the upper band's minimum, with the right size.", "quantifier": "every list of k points and frequencies", "why_tests_cant": "Universal over unbounded lists of k points and bands.", "anchors": ["mpb/mpb.scm.in: update-band-range-data, output-gaps, retrieve-gap, run-parity"]}
{"id": "C27", "title": "Splitting the k points over runs covers every k point once", "statement": "For every list of k points and number of chunks, the chunks concatenated in index order are the whole list, sizes differ only through the last chunks, and the reported starting index of each nonempty chunk is the number of k points before it.", "quantifier": "every list, every chunk count, every chunk index", "why_tests_cant": "All list lengths and chunk counts.", "anchors": ["mpb/mpb.scm.in: list-split, run-parity"]}
{"id": "C28", "title": "The optimized grid size is the smallest admissible one", "statement": "The grid size optimizer always terminates for positive sizes and returns the smallest integer not below the requested one whose prime factors are all at most 7.", "quantifier": "every positive integer", "why_tests_cant": "Universal over integers; termination is not observable by testing.", "anchors": ["mpb/mpb.scm.in: next-factor2357"]}
{"id": "C29", "title": "Brillouin-zone reduction returns an equivalent wave vector that is no longer", "statement": "For every k and every lattice the reduction terminates and returns a vector differing from k by integers whose length is not larger than k's and not improvable by any of its trial translations; for it to be in the first Brillouin zone no reciprocal lattice translation may shorten it.", "quantifier": "every lattice metric and every k", "why_tests_cant": "Continuum of lattices; termination of a nested search.", "anchors": ["mpb/mpb.scm.in: first-brillouin-zone"]}
{"id": "C30", "title": "Output file names end in .h5 exactly once", "statement": "A file name given with or without the .h5 ending designates the same file, and the produced name ends in .h5 and consists of the given name followed by at most one added suffix.", "quantifier": "every file name string", "why_tests_cant": "Universal over strings; substring search versus suffix test differ only on unusual names.", "anchors": ["src/matrixio/matrixio.c: add_fname_suffix"]}
{"id": "C31", "title": "Saved eigenvectors can be loaded back unchanged under any process layout", "statement": "Writing the eigenvectors to a file from any partition of the plane waves over processes and reading them with any other partition gives back the same eigenvectors.", "quantifier": "every shape, every pair of contiguous partitions", "why_tests_cant": "All partitions; tests run on a couple of process counts.", "anchors": ["src/matrixio/evectmatrixio.c: evectmatrixio_writeall_raw, evectmatrixio_readall_raw", "src/matrixio/matrixio.c: matrixio_write_real_data, matrixio_read_real_data"]}
{"id": "C32", "title": "Strided data is gathered completely and in order before writing", "statement": "Writing real or imaginary parts out of interleaved storage writes exactly the selected component of every element in order, for every count (including counts not divisible by the unrolling factor).", "quantifier": "every length and stride", "why_tests_cant": "Hand-unrolled loop; remainder handling for every length modulo 4.", "anchors": ["src/matrixio/matrixio.c: matrixio_write_real_data"]}
{"id": "C33", "title": "Processor groups are nonempty, ordered and balanced", "statement": "Dividing P processes into G groups (1<=G<=P) gives group numbers nondecreasing in rank, covering exactly 0..G-1, with sizes differing by at most one; invalid G is refused.", "quantifier": "all P and G", "why_tests_cant": "All pairs (P,G).", "anchors": ["src/util/mpi_utils.c: divide_parallel_processes, end_divide_parallel"]}
{"id": "C34", "title": "File critical sections admit one process at a time, in rank order, without deadlock", "statement": "With the token-passing critical section no two processes are inside simultaneously, processes enter in rank order for each section, and every process that reaches the section eventually enters for any number of processes and any number of successive sections.", "quantifier": "every interleaving of any number of processes over any number of sections", "why_tests_cant": "All schedules; concurrency cannot be settled by running a few.", "anchors": ["src/util/mpi_utils.c: mpi_begin_critical_section, mpi_end_critical_section"]}
{"id": "C35", "title": "Communicator switching always restores the group communicator", "statement": "Any well-bracketed sequence of dividing processes, switching to global communication and back leaves the current communicator equal to the group's, frees each created communicator exactly once and never frees the world communicator.", "quantifier": "every sequence of operations", "why_tests_cant": "Unbounded histories.", "anchors": ["src/util/mpi_utils.c: divide_parallel_processes, begin_global_communications, end_global_communications, end_divide_parallel"]}
{"id": "C36", "title": "The debugging allocator detects misuse and never flags correct use", "statement": "Under the debugging allocator, freeing a block never allocated, freeing twice, or having written past the end of the block within the padded area is reported at the free, and a program that does none of these is never reported; the counter of live memory equals the sum of live block sizes.", "quantifier": "every sequence of allocations, in-bounds and out-of-bounds writes and frees", "why_tests_cant": "Unbounded histories and all write positions.", "anchors": ["src/util/debug_malloc.c: debug_malloc, debug_free"]}
{"id": "C37", "title": "Material-grid parameters can be read and written without loss", "statement": "Reading all grid parameters into a vector and writing them back changes nothing; writing a vector and reading gives that vector; the number of parameters is the sum of grid sizes.", "quantifier": "every collection of distinct grids and every parameter vector", "why_tests_cant": "Universal over unbounded collections.", "anchors": ["mpb/material_grid.c: material_grids_get, material_grids_set, material_grids_ntot"]}
{"id": "C38", "title": "Material-grid values stay in range", "statement": "If all grid parameters lie in [0,1] then the grid value at every point, for each combination rule (minimum, product, mean) and any number of overlapping grids, lies in [0,1], so the dielectric constant lies between the two end values.", "quantifier": "every parameter array, every point, every overlap depth, every rule", "why_tests_cant": "Continuum of points and unbounded overlap.", "anchors": ["mpb/material_grid.c: material_grid_val, matgrid_val", "mpb/epsilon.c: epsilon_func"]}
{"id": "C39", "title": "Material-grid gradients are the exact derivatives of grid values", "statement": "The weights accumulated for a point are the partial derivatives of the interpolated grid value with respect to each grid parameter: summing weight times perturbation gives the exact change of the interpolated value.", "quantifier": "every grid size, every point, every perturbation", "why_tests_cant": "Derivative identity for all data and points; finite differences only sample.", "anchors": ["mpb/material_grid.c: add_interpolate_weights", "mpb/epsilon_file.c: linear_interpolate"]}
{"id": "C40", "title": "The gap objective and its gradient agree", "statement": "The relative gap reported to the optimizer and the gradient supplied with it are consistent for all positive band-edge frequencies, in both the maximization and the minimization mode.", "quantifier": "every pair of positive frequencies", "why_tests_cant": "Derivative identity over a continuum.", "anchors": ["mpb/material_grid_opt.c: maxgap_func, maxmin_gap"]}
{"id": "C41", "title": "Field queries only ever report on the band that was asked for", "statement": "After any sequence of field requests, the loaded field and the band number recorded with it always belong to the same request; a refused request leaves no field that is later converted or reported as another one.", "quantifier": "every sequence of field commands including failing ones", "why_tests_cant": "Unbounded histories with failing commands interleaved.", "anchors": ["mpb/fields.c: get_dfield, get_hfield, get_bfield, get_efield_from_dfield, compute_field_energy", "mpb/field-smob.c: update_curfield_smob"]}
{"id": "C42", "title": "Energies in objects and dielectric ranges are fractions that add up", "statement": "For any normalized energy field the energy fractions reported for a partition of the dielectric range add up to one and each lies in [0,1].", "quantifier": "every energy field, every partition of the range", "why_tests_cant": "All fields, all partitions.", "anchors": ["mpb/fields.c: compute_energy_in_dielectric, compute_energy_in_object_list, compute_field_energy_internal"]}
{"id": "C43", "title": "Phase fixing is canonical", "statement": "Fixing the phase of a band multiplies the field and the stored eigenvector by one and the same unit complex number, maximizes the real part's norm, and gives the same final field for any initial global phase.", "quantifier": "every field and every initial phase", "why_tests_cant": "Continuum of fields and phases.", "anchors": ["mpb/fields.c: fix_field_phase"]}
{"id": "C44", "title": "Field files contain the field times its Bloch phase", "statement": "The complex field written to a file is at each grid point the stored periodic field times exp(i k.r) for that point's position, for vector and scalar fields alike.", "quantifier": "every grid size, k and field, any number of components", "why_tests_cant": "All sizes and components.", "anchors": ["src/matrixio/fieldio.c: fieldio_write_complex_field"]}
{"id": "C45", "title": "mpb-data reproduces and periodically extends data", "statement": "Without options mpb-data reproduces its input exactly; with copies in a direction the output repeats the input times the Bloch phase of the cell; transposition permutes the data bijectively; all accesses are in range for any input and output sizes and any lattice.", "quantifier": "all sizes, lattices, and wave vectors", "why_tests_cant": "Index arithmetic over all sizes and all affine maps.", "anchors": ["utils/mpb-data.c: map_data, add_cmplx_times_phase, handle_dataset"]}
{"id": "C46", "title": "Rectification gives an orthogonal cell of the same volume", "statement": "The rectangular output cell produced by mpb-data has mutually orthogonal axes, first axis along the requested direction and the same volume as the input cell.", "quantifier": "every nondegenerate lattice and direction", "why_tests_cant": "Continuum of lattices.", "anchors": ["utils/mpb-data.c: handle_file"]}
{"id": "C47", "title": "File and dataset names on the command line are split faithfully", "statement": "A command-line argument file:dataset is split at its first colon; file, colon and dataset concatenated give back the argument; without a colon the dataset is empty.", "quantifier": "every string", "why_tests_cant": "Universal over strings.", "anchors": ["utils/mpb-data.c: split_fname"]}
{"id": "C48", "title": "Divergence uses the wave vector of each plane wave", "statement": "The charge density derived from a field uses at each plane wave the actual vector k+G reconstructed from the stored basis.", "quantifier": "every k+G and its transverse basis", "why_tests_cant": "Only visible for bases with particular nonzero components; needs the general identity.", "anchors": ["mpb/fields.c: compute_field_divergence"]}
{"id": "C49", "title": "Scaling a band by a unit complex number keeps its norm", "statement": "scale-eigenvector multiplies the chosen band by the given number and leaves other bands alone; in real (inversion-symmetric) builds a number that is not real is refused.", "quantifier": "every scale factor, every band", "why_tests_cant": "All complex numbers; a tolerance test on a product misses pure imaginary numbers.", "anchors": ["mpb/matrix-smob.c: scale_eigenvector"]}
{"id": "C50", "title": "Matrix update primitives mean what they say even for repeated arguments", "statement": "X := aX + bY yields the linear combination for all a, b, including when X and Y are the same matrix as the code's comment promises.", "quantifier": "all matrices and coefficients, aliased or not", "why_tests_cant": "Aliasing behaviour is invisible in ordinary tests.", "anchors": ["src/matrices/evectmatrix.c: evectmatrix_aXpbY", "src/matrices/sqmatrix.c: sqmatrix_aApbB"]}
{"id": "C51", "title": "Random perturbation of a material grid stays in [0,1]", "statement": "Adding noise of any amplitude to grid parameters terminates and leaves them in [0,1], reflecting at the ends.", "quantifier": "every parameter and noise value", "why_tests_cant": "Continuum; termination.", "anchors": ["mpb/material_grid.c: randomize_material_gridB"]}
{"id": "C52", "title": "The FFT plan cache never hands out a plan for another transform shape", "statement": "A cached FFT plan is reused only for a request with the same direction, band layout and in-place/out-of-place status and at most the cache's capacity is retained, for any sequence of requests.", "quantifier": "every sequence of transform requests", "why_tests_cant": "Unbounded histories; wrong reuse corrupts silently.", "anchors": ["src/maxwell/maxwell_op.c: maxwell_compute_fft", "src/maxwell/maxwell.c: destroy_maxwell_data"]}
{"id": "C53", "title": "Two halves of a half-stored field reconstruct the full Bloch field", "statement": "In inversion-symmetric builds the stored half together with the computed other half is the complete field with the symmetry A(-r) = conj(A(r)), including the Bloch phases of wrapped coordinates, with each point written once.", "quantifier": "every grid size, odd and even, every k", "why_tests_cant": "Special index handling; all sizes.", "anchors": ["src/maxwell/maxwell_op.c: maxwell_vectorfield_otherhalf, maxwell_cscalarfield_otherhalf, maxwell_scalarfield_otherhalf"]}
{"id": "C54", "title": "Symmetry overlaps: identity gives the energy, no overlap exceeds it, eigenfields give their eigenvalue", "statement": "The transformed overlap with the identity is real and equals the field's energy; for symmetries of lattice, grid and medium no overlap exceeds it in magnitude, the inverse operation gives the conjugate value, and a field that the operation multiplies by a number gives that number times the energy.", "quantifier": "every field, grid, medium, lattice, wave vector and operation that takes grid points to grid points", "why_tests_cant": "Universal over fields.", "anchors": ["mpb/transform.c: transformed_overlap"]}
{"id": "C55", "title": "The convergence test accepts only a settled trace and works for any sign", "statement": "The eigensolver stops as converged only if the relative change of the trace over the last iteration is below the tolerance; and it can be satisfied by any convergent sequence of traces.", "quantifier": "every sequence of trace values", "why_tests_cant": "All sequences, all signs.", "anchors": ["src/matrices/eigensolver.c: eigensolver", "src/matrices/eigensolver_davidson.c: eigensolver_davidson"]}
{"id": "C56", "title": "The subpixel averaging mesh is centred, stays inside its voxel and tiles the cell uniformly", "statement": "For mesh sizes of at least one, the samples averaged at a grid point are as many as the product of the sizes, lie strictly within half a grid step of it in every lattice direction, average to the grid point itself, and together over all grid points form one uniform grid covering the cell.", "quantifier": "every grid size, mesh size and grid point", "why_tests_cant": "All sizes; a shifted mesh gives plausible slightly wrong results that only show as slow convergence.", "anchors": ["src/maxwell/maxwell_eps.c: set_maxwell_dielectric"]}
{"id": "C57", "title": "Products of selected bands land in the requested columns", "statement": "Dotting p selected columns of one field matrix with q of another writes exactly the q requested columns of the result matrix, with the inner products of the selected bands, and a request that does not fit in the result is refused without touching memory.", "quantifier": "all shapes, slices and offsets", "why_tests_cant": "Offsets and strides over all shapes; out-of-bounds writes are silent.", "anchors": ["src/matrices/evectmatrix.c: evectmatrix_XtY_slice2"]}
{"id": "C58", "title": "The dominant plane wave reported for a band is the strongest one", "statement": "The wave vector reported for a band is k+G of a plane wave whose intensity in that band no other plane wave exceeds, on one process or on several, whether or not the processes are divided into groups; band numbers out of range are refused.", "quantifier": "every field, grid, k, band and distribution over processes", "why_tests_cant": "Depends on the distribution over processes and processor groups; a wrong vector looks plausible.", "anchors": ["src/maxwell/maxwell.c: maxwell_dominant_planewave"]}
{"id": "C59", "title": "The parity constraints pair each plane wave with its mirror image", "statement": "The position the mirror constraints and the parity sums pair with a given position holds the negated frequency index of that dimension.", "quantifier": "every grid size and position", "why_tests_cant": "Every size; odd sizes differ from even ones in a single frequency.", "anchors": ["src/maxwell/maxwell_constraints.c: maxwell_zparity_constraint, maxwell_yparity_constraint", "src/maxwell/maxwell.c: update_maxwell_data_k"]}
{"id": "C60", "title": "A prescribed plane wave is the only content of its band", "statement": "Setting a band to a plane wave of given diffraction orders and s and p amplitudes stores the transverse field s S + p P at wave vector k+G with G the requested orders, zero elsewhere in the band and nothing in other bands; orders not on the grid and an axis along k+G are refused.", "quantifier": "every grid, slab, order, amplitude, axis and k", "why_tests_cant": "All orders including the ones near the edge of the frequency set, where aliasing is silent.", "anchors": ["src/maxwell/maxwell.c: maxwell_set_planewave"]}
{"id": "C61", "title": "Every parameter of a default-material grid matters somewhere in the cell", "statement": "When a material grid fills the whole cell as the default material, the grid covers the cell once: each parameter influences the dielectric function at some point of the cell.", "quantifier": "every grid, every cell size, every point of the cell", "why_tests_cant": "Continuum of points; a wrong coordinate offset still gives smooth, plausible values.", "anchors": ["mpb/material_grid.c: matgrid_val, material_grids_addgradient_point"]}
{"id": "C62", "title": "Optimization constraints always see the current structure", "statement": "During gap optimization each band-edge constraint is evaluated with the frequencies of its own k point for the parameters of the latest objective evaluation, although solves are shared between constraints.", "quantifier": "every sequence of objective and constraint evaluations, every stale state left by earlier commands", "why_tests_cant": "Unbounded call histories; a stale frequency looks like any other number.", "anchors": ["mpb/material_grid_opt.c: band_constraint, maxgap_func"]}
{"id": "C63", "title": "Line minimization steps go downhill", "statement": "In each iteration of the eigensolver the trial step and the starting angle point downhill, an accepted approximate step on a locally quadratic trace is the minimum along the line, and a rejected one does not leave the eigenvectors at a worse point.", "quantifier": "every slope, curvature, previous step and flag", "why_tests_cant": "A step in the wrong direction only slows convergence down, in rare branches.", "anchors": ["src/matrices/eigensolver.c: eigensolver_lagrange"]}
{"id": "C64", "title": "Group velocities are the derivatives of the frequencies", "statement": "The group velocity computed for a band times its frequency is half the derivative of the expectation value of the operator with respect to the wave vector in the given direction; bands are processed in blocks of any size without reading or writing outside the arrays, and the stored eigenvectors are left as they were.", "quantifier": "every direction, grid, tensor field, field, number of bands and block size", "why_tests_cant": "A derivative for all fields and directions; memory effects that later commands see only in some configurations.", "anchors": ["mpb/mpb.c: compute_group_velocity_component, compute_1_group_velocity_component", "src/maxwell/maxwell_op.c: maxwell_ucross_op"]}
{"id": "C65", "title": "In a homogeneous medium plane waves are exact modes and the preconditioners are exact inverses", "statement": "With one isotropic permittivity and permeability everywhere, the operator multiplies every plane-wave amplitude by |k+G|^2/(epsilon mu) relative to the permeability operator, and both preconditioners undo the operator exactly wherever k+G is not zero.", "quantifier": "every grid, lattice, k, permittivity, permeability and field", "why_tests_cant": "Continuum of materials and wave vectors; normalization errors of the transforms cancel in comparisons of the program with itself.", "anchors": ["src/maxwell/maxwell_op.c: maxwell_operator, maxwell_muinv_operator", "src/maxwell/maxwell_pre.c: maxwell_simple_precondition, maxwell_preconditioner2"]}
{"id": "C66", "title": "The preconditioners are Hermitian and positive", "statement": "Both preconditioners are Hermitian, the curl preconditioner is nonnegative when the traces of the inverse tensors are positive, and the diagonal one is positive definite, for every k including those where some k+G is zero.", "quantifier": "every pair of fields, grid, k and tensor field", "why_tests_cant": "All pairs of fields; an indefinite preconditioner only shows as slow or failed convergence.", "anchors": ["src/maxwell/maxwell_pre.c: maxwell_simple_precondition, maxwell_preconditioner2"]}
{"id": "C67", "title": "The fields of a normalized eigenstate have unit energy", "statement": "get-bfield, get-dfield and get-efield load the eigenvector's field over the root of the cell volume, its curl over minus the frequency, and the inverse tensor times that; compute-field-energy then returns the eigenvector's norm for B and its Rayleigh quotient over the squared frequency for D, so both energies of a normalized eigenstate are one and the six component fractions add up to one; band numbers out of range are refused.", "quantifier": "every grid, cell volume, k, tensor field, set of eigenvectors and band", "why_tests_cant": "All eigenvectors and media; a missing scale factor cancels in every ratio a test looks at.", "anchors": ["mpb/fields.c: get_dfield, get_bfield, get_efield, compute_field_energy_internal, compute_field_energy"]}
{"id": "C68", "title": "A line search never returns a worse point than it started from", "statement": "Every exit of the line search other than a refusal of its arguments, converged or with a warning, leaves a step at which the function satisfies the sufficient-decrease condition relative to the start, with the value and slope reported being those of that step, within the upper bound; after a warning it is the best point found, as the comment on the routine says.", "quantifier": "every function, starting slope of either sign, tolerances, bounds and first guess, any number of evaluations", "why_tests_cant": "Warning exits depend on rounding-sized intervals and arbitrarily long histories; eigensolver.c only dies on exits whose text is not a warning.", "anchors": ["src/matrices/linmin.c: linmin", "src/matrices/minpack2-linmin.c: dcsrch", "src/matrices/eigensolver.c 708-752"]}
{"id": "C69", "title": "Every line search ends", "statement": "linmin returns after finitely many evaluations for every function the eigensolver can give it, every admissible tolerance and every admissible first guess.", "quantifier": "every function or sequence of values, every first guess and tolerance, no bound on the number of evaluations", "why_tests_cant": "Termination over all functions: no test can wait for ever, and the loop has no iteration limit.", "anchors": ["src/matrices/linmin.c: linmin", "src/matrices/minpack2-linmin.c: dcsrch, dcstep", "src/matrices/eigensolver.c 708-752"]}
{"id": "C70", "title": "The derivatives of the trace are exact", "statement": "The value, slope and curvature with which the eigensolver's line minimization works are those of the trace Re tr[Y+AY (Y+BY)^-1] along the turned fields: trace_func returns the trace (with the Lagrange term) and its derivative at every angle; dE and d2E are the first and second derivative at the start; the gradient kept gives the slope in every direction.", "quantifier": "every number of bands and field components, every pair of Hermitian operators, fields, directions and angles", "why_tests_cant": "The formulas are traces of products of inverses; a wrong factor still converges on most test cases, only slower, and derivatives over all matrices cannot be sampled.", "anchors": ["src/matrices/eigensolver.c: trace_func, eigensolver_lagrange 381-427, 648-723"]}
{"id": "C71", "title": "The eigensolver never increases the trace", "statement": "In every run the traces never increase from one iteration to the next, starting with that of the given fields; each step satisfies the sufficient-decrease condition of its line minimization; every index is in range and no check fails other than the limit on iterations; the run yields numbers.", "quantifier": "every operator pair, constraint projection, preconditioner, start, reset policy, tolerance and number of iterations", "why_tests_cant": "Runs of unbounded length over arbitrary operators; an increase within the tolerance is invisible in converged results.", "anchors": ["src/matrices/eigensolver.c: eigensolver_lagrange 300-800", "src/matrices/eigensolver_utils.c: eigensolver_get_eigenvals_aux"]}
{"id": "C72", "title": "What the eigensolver returns", "statement": "After a run the fields satisfy the constraint, are orthonormal in the metric B and diagonalize A; the values are ascending, add up to the last trace, which satisfies the convergence criterion, and none is below the exact value with the same number; if the trace is stationary at the fields they are exact eigenvectors.", "quantifier": "every operator pair, constraint, preconditioner, start, tolerance and length of the run", "why_tests_cant": "Statements about the exact spectrum, which a test does not know, for all operators and starts.", "anchors": ["src/matrices/eigensolver.c 801-823", "src/matrices/eigensolver_utils.c 32-46", "src/matrices/sqmatrix.c: sqmatrix_sqrt, sqmatrix_eigensolve"]}
{"id": "C73", "title": "The eigensolver ends", "statement": "For a semidefinite operator and a positive tolerance the number of iterations is bounded by the first trace over the tolerance, and every line minimization ends.", "quantifier": "every semidefinite operator, start and tolerance; no bound on the length of the run", "why_tests_cant": "Termination over all operators and starts.", "anchors": ["src/matrices/eigensolver.c: eigensolver_lagrange 310-799", "src/matrices/linmin.c"]}
{"id": "C74", "title": "Davidson iterations are exact Rayleigh-Ritz steps in growing spaces", "statement": "Every iteration of the Davidson solver diagonalizes the operator exactly in a space of orthonormal fields that satisfies the constraint, holds the fields of the iteration before and their preconditioned residual, and is not larger than the work space; without target no value rises; the result is orthonormal, diagonalizes the operator and is not below the exact values; the solver ends with a result or an error message and never leaves its arrays.", "quantifier": "every operator, preconditioner, constraint, start, tolerance, number of bands and of work arrays; no bound on the number of iterations", "why_tests_cant": "The space is restarted after a number of iterations that depends on memory; a stale block of V^+ A V shows only in particular runs.", "anchors": ["src/matrices/eigensolver_davidson.c: eigensolver_davidson 55-248", "src/matrices/evectmatrix.c: evectmatrix_XtY_sub 212-232", "src/matrices/sqmatrix.c: sqmatrix_copy_upper2full 96-109", "src/matrices/matrices.c: matrix_XpaY_diag_real 146-159"]}
{"id": "C75", "title": "The Davidson solver keeps the values nearest to the target", "statement": "With a target the values kept in an iteration are the ones of the space nearest to it.", "quantifier": "every target and every list of values", "why_tests_cant": "Needs degenerate values in the space.", "anchors": ["src/matrices/eigensolver_davidson.c: eigensolver_davidson 129-137"]}
{"id": "C76", "title": "find-k answers every question of the root finder with the band's own values and calculates each k once", "statement": "find-k treats the bands from the highest down. Each search starts from the k tried so far whose frequency for that band is closest to omega (the guess, before anything was tried); every evaluation returns frequency minus omega and group velocity of that band at that k, whether calculated or taken from the table; no k is calculated twice; a guarantee of the root finder therefore carries over to each k returned, the i-th being for band band-min+i. Afterwards num-bands and k-points are as before, and every band function was called once per band at the k found for it.", "quantifier": "for every solver, root finder (any finite adaptive sequence of questions), range of bands, guesses, direction and number of band functions", "why_tests_cant": "The questions depend adaptively on the answers and the table grows over the whole search; tests follow one sequence.", "anchors": ["mpb/mpb.scm.in:850-915"]}
{"id": "C77", "title": "dot-eigenvectors gives the overlaps with stored eigenvectors and fix-phase-consistency makes the diagonal ones real and positive", "statement": "Entry (i,j) of dot-eigenvectors is the inner product of stored band i with band b_start+j, with the inverse permeability applied to the latter if there is one, whatever the block size; the scratch sizes are restored; bands that do not exist are refused. After fix-phase-consistency each diagonal overlap is real, not negative and of unchanged modulus; each band is the band before divided by the returned phase, of modulus 1; other bands are unchanged.", "quantifier": "for every grid, medium, permeability, number of stored bands, first band, block size and eigenvectors", "why_tests_cant": "Bands not a multiple of the block size, with permeability, leave wrong columns only in the last block; phases of a test are few.", "anchors": ["mpb/matrix-smob.c: dot_eigenvectors 286-333, sqmatrix_ref 206-216, scale_eigenvector 335-349", "mpb/mpb.scm.in: fix-phase-consistency 919-930"]}
{"id": "C78", "title": "Solving at a k point block by block gives one orthonormal set of bands", "statement": "Whatever the block size, the bands returned by solve_kpoint satisfy the parity and k = 0 constraints and are orthonormal in the metric of the inverse permeability, also between blocks; inside a block they diagonalize the operator with ascending values, and no frequency is below the exact one with its number in the block. With a solver that finds the lowest modes of each block, the bands together are the lowest modes and ascend throughout. At k = 0 the first bands are the constant fields that the parity allows, with frequency 0. No array is overrun, and the arrays that init_params keeps from a call before are those that the new structure needs.", "quantifier": "for every number of components and bands, block size, parity, operator, permeability, constraint and both solvers", "why_tests_cant": "Deflation, block offsets and array reuse depend on block size, bands, k = 0 and the order of runs together; an overlap of bands in different blocks is not visible in the frequencies of a test.", "anchors": ["mpb/mpb.c: solve_kpoint 590-838, deflation_constraint 556-580, init_params 436-503", "src/matrices/eigensolver_utils.c: 74-106"]}
{"id": "C79", "title": "The bands found are the modes of the Maxwell operator of the structure", "statement": "When solve_kpoint returns, with either solver and preconditioner, the frequencies are roots of the energies of the curls of the fields it returns, weighted with the inverse permittivity; the fields have unit energy and are orthogonal, have the mirror symmetry asked for, and at k = 0 no constant part except for the constant bands at frequency 0. With a nonnegative inverse permittivity no frequency is the root of a negative number. In a uniform medium no band is below |k+G|/n of its number in the block. No array is overrun.", "quantifier": "for every grid, lattice, structure, number of bands, block size, parity, solver, preconditioner and tolerance", "why_tests_cant": "The solvers, the operator, the constraints and deflation are tested apart, on small cases; that together they produce fields whose curls have these energies concerns every structure.", "anchors": ["mpb/mpb.c: solve_kpoint 590-838", "src/maxwell/maxwell_op.c: maxwell_operator 1182-1222, maxwell_muinv_operator 1224-1247", "src/maxwell/maxwell_pre.c: 75-81, 212-311", "src/maxwell/maxwell_constraints.c: 31-42"]}
{"id": "C80", "title": "In a mirror symmetric structure the operator keeps the parity of fields", "statement": "If k is in the mirror plane, the lattice goes over into itself and the tensors at mirrored points are mirrored, then mirrored fields have the same matrix elements and even and odd fields are not coupled, so that bands of each parity can be computed separately. In two dimensions (TE and TM) applying the operator to a field of one parity gives a field of that parity.", "quantifier": "for every grid size, lattice, mirror symmetric structure, field and number of bands transformed at a time", "why_tests_cant": "Parity is a statement about all fields on all grids; tests look at frequencies of a few structures.", "anchors": ["src/maxwell/maxwell_op.c: maxwell_operator 1182-1222", "src/maxwell/maxwell.c: update_maxwell_data_k 420-520", "src/maxwell/maxwell_constraints.c: maxwell_zparity_constraint, maxwell_yparity_constraint"]}
{"id": "C81", "title": "Whatever line minimizations the eigensolver chooses, its results are orthonormal Ritz fields", "statement": "The solver switches between the exact and the approximate line minimization by measured times and accuracy. Every run that ends returns orthonormal fields within the constraint that diagonalize the operator, with ascending eigenvalues that are not below the exact ones, and accesses nothing outside the arrays. An exact line minimization never raises the trace, also after an approximate one was given up; an approximate one moves to the minimum of a parabola with the true slope; it is taken up only after an improvement of at most 5%.", "quantifier": "for every size, operator, constraint, initial field, tolerance, flags and every outcome of the timing", "why_tests_cant": "Which line minimization is used depends on measured times and on the machine, so tests see an arbitrary one of many runs.", "anchors": ["src/matrices/eigensolver.c: eigensolver_lagrange 310-799, approximate line minimization 565-645, choice 756-793"]}
{"id": "C82", "title": "With a target frequency the bands closest to it are found", "statement": "With target-freq the solver is given the square of the Maxwell operator minus the squared target, and the Maxwell operator is diagonalized in what it finds. The bands are orthonormal, satisfy the constraints, within a block diagonalize the Maxwell operator, and their squared frequencies are its values. If the solver of the squared operator finds lowest modes, no mode that is orthogonal to the bands is closer to the target than any of them; the bands are exact modes; and the frequencies are in ascending order. The targeted solver never accesses memory outside its arrays, and refuses a permeability. In a uniform medium its preconditioners invert the squared operator.", "quantifier": "for every size, number of bands, block size, target, constraint, structure without permeability, and every run of either eigensolver", "why_tests_cant": "Tests compare a few frequencies of one structure where the closest modes in frequency and in squared frequency coincide.", "anchors": ["mpb/mpb.c: solve_kpoint 585-840 (709-736)", "src/maxwell/maxwell_op.c: maxwell_target_operator1, maxwell_target_operator 1255-1282", "src/maxwell/maxwell_pre.c: maxwell_target_preconditioner 83-135, maxwell_target_preconditioner2 313-321", "src/matrices/eigensolver_utils.c: eigensolver_get_eigenvals 48-67", "doc/docs/Scheme_User_Interface.md: target-freq 52"]}
{"id": "C83", "title": "Field objects keep, combine and give back fields; Poynting vector and energy density", "statement": "A field object is a copy of a field with its kind and shape that no command changes except those told to write to it; loading it back gives the field that was copied, after any other computations on the same grid. field-set! copies values exactly and refuses other kinds and shapes; field-map! gives at every grid point the function of the values its sources had, even if the destination is one of them. Every sequence of the commands stays within the arrays. get-poynting gives conj(E) x H of the band, whose flux is the group velocity; get-tot-pwr gives the sum of the electric and magnetic energy densities. Whatever can be loaded can be used as cur-field, and requests that make no sense are refused.", "quantifier": "for all sequences of commands (computing fields, energies, media, making, copying, setting, loading, mapping, marking), all fields, functions, grids, media, bands", "why_tests_cant": "Tests store and map one field of one structure; they cannot cover orders of commands, aliasing of source and destination, or every function.", "anchors": ["mpb/field-smob.c: update_curfield_smob 129-162, update_curfield 164-170, assert_field_smob 185-190, make 194-264, fields_conform 266-273, field_set 284-317, field_load 319-329, field_mapL 331-391", "mpb/mpb.scm.in: field-copy 274, get-poynting 753-760, get-tot-pwr 774-784", "mpb/medium.c: 72-73", "doc/docs/Scheme_User_Interface.md: 715-815"]}
{"id": "C84", "title": "Comparison of structures: variational bounds, light line, scale invariance", "statement": "No band that is found, converged or not, lies below the mode of the same number of a structure whose permittivity is nowhere smaller; the exact frequencies do not rise when the permittivity is raised anywhere. Without permeability no band lies below the light line of the largest permittivity, and the exact modes lie between those of the uniform media with the largest and the smallest. The results are scale invariant: dividing all lengths by c multiplies the frequencies by c, and multiplying the permittivity by a factor divides them by its root, with the same fields.", "quantifier": "for every grid, lattice, k, anisotropic structure, permeability (where not excluded), number of bands, block size, parity, solver, preconditioner and tolerance", "why_tests_cant": "A test compares two structures; that the order and the bounds hold for all pairs of structures, and for runs that stop early, is a min-max statement over all fields.", "anchors": ["doc/docs/Scheme_Tutorial.md: 134", "mpb/mpb.c: solve_kpoint 590-838", "src/maxwell/maxwell.c: 405-519", "src/maxwell/maxwell_op.c: maxwell_operator 1182-1222, maxwell_muinv_operator 1224-1247"]}
{"id": "C85", "title": "The exact bands exist, are unique, and depend continuously on the structure", "statement": "Every structure on every grid, at every k and for every parity, has a complete list of exact modes, and only one list of exact squared frequencies; without parity there are two for each plane wave (two fewer at k = 0). They are not negative, and positive but where a wave vector vanishes. A change of the inverse permittivity by at most e moves none of them by more than e times the largest |k+G|^2. Every run that completes returns bands not below the exact ones: within a block one by one, and over all blocks in sum. Linear algebra routines that do what the solvers assume exist for all sizes.", "quantifier": "for every grid, lattice, k, anisotropic structure, positive permeability (where not excluded), number of bands, block size, parity, solver, preconditioner and tolerance", "why_tests_cant": "What a run is compared with is not itself computed by any test; that it exists and that the error of every run has one sign is a statement over all structures and all runs.", "anchors": ["mpb/mpb.c: solve_kpoint 590-838", "src/maxwell/maxwell_op.c: maxwell_operator 1182-1222, maxwell_muinv_operator 1224-1247", "src/maxwell/maxwell_constraints.c: 30-398", "src/matrices/eigensolver.c: 198-838"]}
{"id": "C86", "title": "Time reversal: a structure at k and the complex-conjugate structure at -k have the same frequencies", "statement": "A structure without permeability at k and its complex conjugate (for real permittivities the same structure) at -k have complex-conjugate fields and the same frequencies, so that only one of k and -k has to be computed.", "quantifier": "for every grid, lattice, k, Hermitian tensors, number of bands and block size", "why_tests_cant": "Whether the statement holds depends on the table of frequencies for every grid size; sampled comparisons at a finite tolerance see agreement whenever the outermost frequencies carry little of the field.", "anchors": ["src/maxwell/maxwell.c: update_maxwell_data_k 420-521", "src/maxwell/maxwell_op.c: maxwell_operator 1182-1222", "mpb/mpb.c: solve_kpoint 590-838"]}
{"id": "C87", "title": "The last object in the geometry list that contains a point decides its material", "statement": "At every point the tensor is that of the last object of the list containing the point, after following material functions however often they return further ones, or interpolated between the ends of a material grid; where there is no object, or one made of nothing, it is the default material's or the input file's. It comes with its inverse, repeats with the lattice, and a structure judged to have no permeability has mu = 1 everywhere.", "quantifier": "for every geometry list, default material, input file, position, nesting of material functions, and both epsilon and mu", "why_tests_cant": "Tests place a few objects and sample a few points; order, nesting, nothing, files and functions combine without limit, and the statement is about all points.", "anchors": ["mpb/epsilon.c: material_epsilon 22-83", "mpb/epsilon.c: epsilon_func 93-184", "mpb/medium.c: has_mu 80-113", "doc/docs/Scheme_User_Interface.md 195-201"]}
{"id": "C88", "title": "A pixel is averaged only between the two materials it touches, by the part each fills", "statement": "When the averaging routine answers, every point it looked at in the pixel has one of two tensors, and the answer is that tensor, or their average weighted by the part of the pixel in the object on top and oriented by its normal; it is positive definite when the materials are, equals the value at the centre in a single material, and no null object or unset variable is read.", "quantifier": "for every geometry list, pixel, dimension and material", "why_tests_cant": "The routine keeps two candidates while it goes over up to nine points; which sequences of objects make it forget one is a question about all sequences.", "anchors": ["mpb/epsilon.c: mean_epsilon_func 186-407", "mpb/medium.c: variable_material 64-68"]}
{"id": "C89", "title": "The tensor components written to a file are the components of the tensor", "statement": "The dataset of component c1 c2 of epsilon, or of its inverse, holds the real part and off the diagonal the imaginary part of that component of the Hermitian tensor at every grid point.", "quantifier": "for every positive definite tensor and pair of components", "why_tests_cant": "The component is addressed by a byte offset into a structure with a sign for the lower triangle; a test with real symmetric tensors cannot see the conjugation.", "anchors": ["mpb/epsilon.c: get_epsilon_tensor 501-562", "mpb/fields.c: output_field_to_file 1239-1276"]}
{"id": "C90", "title": "For structures with inversion symmetry the real-scalar build computes with the same operator", "statement": "mpbi, which stores real amplitudes and half of the structure, computes from any real amplitudes the same amplitudes as the program with complex scalars does for the whole structure, when the structure has inversion symmetry; those are real. Whatever half is stored stands for such a structure, provided it is consistent where a point and the opposite one are both stored.", "quantifier": "for every grid, either parity of the last dimension, every batch size of either build, every tensor field with inversion symmetry, with and without permeability", "why_tests_cant": "The real transforms store a padded half of the last dimension; agreement of the two builds over all sizes and structures is not something comparing a few runs can establish, and the two are different binaries.", "anchors": ["src/maxwell/maxwell_op.c: maxwell_compute_fft 168-283", "src/maxwell/maxwell_op.c: maxwell_compute_d_from_H, maxwell_compute_e_from_d, maxwell_compute_H_from_e", "src/maxwell/maxwell.c: create_maxwell_data 60-90", "doc/docs/Scheme_User_Interface.md 863-876"]}
{"id": "C91", "title": "mpbi and mpb have the same exact frequencies", "statement": "For a structure with inversion symmetry the operator of the real-scalar build, on real fields, has exactly the eigenvalues the complex one has on complex fields, each as often, at every k point and for every parity; they exist and are unique.", "quantifier": "for every grid, structure with inversion symmetry, positive permeability, k point and parity", "why_tests_cant": "Degenerate bands could be lost or doubled when only real fields are allowed; that none is, for any structure, is a theorem about the operator and not visible in runs.", "anchors": ["src/maxwell/maxwell_op.c: maxwell_operator 1182-1222, maxwell_muinv_operator 1224-1246", "src/maxwell/maxwell_op.c: maxwell_compute_fft 168-283", "doc/docs/Scheme_User_Interface.md 863-876"]}
{"id": "C92", "title": "The parallel operator is the serial one", "statement": "However a problem is divided among processes, the parts of the result the processes compute with the Maxwell operator, the permeability operator, u x k and the preconditioner are the parts of the block the serial code computes; no process reads or writes outside its arrays, and processes without plane waves or without grid points do no harm. The shapes and tables the code sets up on each process are such a division, for any number of processes.", "quantifier": "for every grid of two or three dimensions, division into slabs, number of processes, number of bands and bands at a time, structure, permeability, k point and block", "why_tests_cant": "Tests run on one or two processes and a few grids; slabs that are uneven or empty and the exchanged first dimensions after the transform make index errors that show only for particular numbers of processes.", "anchors": ["src/maxwell/maxwell.c: create_maxwell_data 121-155, update_maxwell_data_k 443-519", "src/maxwell/maxwell_op.c: maxwell_compute_fft 184-254, maxwell_operator 1182-1222", "src/maxwell/maxwell_eps.c: set_maxwell_dielectric 577", "src/maxwell/xyz_loop.h: LOOP_XYZ with HAVE_MPI"]}
{"id": "C93", "title": "The parallel solver is the serial one", "statement": "The conjugate-gradient eigensolver run on several processes, each with some of the rows of every block, makes the same iterations as on one process: the same values of the trace, the same end, failure or restart, the same eigenvalues, and the fields of one process divided among them; with the Maxwell operator, the permeability, the preconditioner and the parity and zero-k constraints of the parallel build the result is the same for every number of processes.", "quantifier": "for every division of the rows (also with processes that have none), number of bands, operators that agree, settings of the solver, starting block and number of iterations; for every structure, k point, parity and FFTW division", "why_tests_cant": "A test compares a few frequencies of one run on one and on two processes to a tolerance; a missing or doubled global sum, or a decision taken from local data, shows only for particular divisions or as a deadlock.", "anchors": ["src/matrices/eigensolver.c: eigensolver_lagrange 198-823", "src/matrices/evectmatrix.c: XtX 140-166, XtY 172-207, traceXtY 265-278", "src/maxwell/maxwell_constraints.c: maxwell_parity_constraint 31-42, maxwell_zero_k_constraint 383-395", "mpb/mpb.c: solve_kpoint 680-766"]}
{"id": "C94", "title": "Matching material grids to a file: objective and gradient", "statement": "The function that material-grids-match-epsilon-file! minimizes returns the mean square difference, over the points of the grid, between the dielectric constant given by the parameters and the file's value, in every build and on any number of processes, and the vector it returns is the gradient of that number with respect to the parameters.", "quantifier": "for every grid size, file, set of overlapping material grids, combination rule, parameters and direction; whole and half-stored grids, any division among processes", "why_tests_cant": "A finite-difference test at a few points of one structure is accurate to some digits and covers one build; the optimizer hides a wrong gradient by taking more steps or stopping early.", "anchors": ["mpb/material_grid.c: match_eps_func 807-985, material_grids_addgradient_point 313-384, material_grids_set 184-197", "mpb/epsilon_file.c: linear_interpolate 51-96"]}
{"id": "C95", "title": "Gradient of a frequency with respect to material grids", "statement": "The vector that material_grids_addgradient adds to v for a computed band is scalegrad times the gradient of the band's frequency with respect to the parameters of the material grids: its product with any direction is scalegrad times the derivative of the frequency along that direction, however the band is followed.", "quantifier": "for every grid size, wave vector, lattice, set of overlapping material grids, combination rule, parameters, direction, band and continuous branch of eigenfields through it", "why_tests_cant": "A finite difference of two runs agrees to a few digits at most, for one structure and one direction, and is spoilt by the solver's tolerance; it cannot tell a wrong factor at one kind of point from noise.", "anchors": ["mpb/material_grid.c: material_grids_addgradient 386-455, material_grids_addgradient_point 313-384", "mpb/fields.c: get_efield 206-210, compute_field_squared 354-365"]}
{"id": "C96", "title": "Band functions of a run", "statement": "A run writes the dielectric function before any k point is solved and, after each k point, calls each band function exactly once for each of the bands 1..num-bands, in order, or exactly once if it takes no arguments; band functions inside combine-band-functions, output-at-kpoint and output-dpwr-in-objects are called for exactly the bands and k points these select; every call finds current-k, the k-point number used in file names, and the fields of the k point just solved. When the k points are split over several runs, each is solved by exactly one of them under its number in the whole list, and exactly one run writes the dielectric function.", "quantifier": "for all lists of k points, splittings, numbers of bands, nestings of band functions, reset arguments and external procedures", "why_tests_cant": "Tests call run with one or two band functions on a few k points; nesting, splitting and the order relative to randomization cannot be covered by examples.", "anchors": ["mpb/mpb.scm.in: run-parity 611-653, list-split 587-599, apply-band-func-thunk 792-797, output-dpwr-in-objects 804-813, combine-band-functions 816-818, output-at-kpoint 821-825", "mpb/mpb.c: randomize_fields 294-305, solve_kpoint 826"]}
{"id": "C97", "title": "The group velocity is the derivative of the frequency", "statement": "For a band of positive frequency whose field is an exact normalised eigenfield, the group velocity along a direction, as a Cartesian vector, in reciprocal coordinates, and for all bands at once, is the derivative of the band's frequency as the wave vector moves, however the band is followed: the product of the vector with any direction is the derivative of the square root of the eigenvalue along it, with the code's own transverse bases at the moved wave vectors. The reciprocal lattice vectors used for the conversions are dual to the lattice vectors. Calls before a k point is solved return no velocity.", "quantifier": "for all grids, lattices, dielectric tensors, wave vectors, directions, bands and families of eigenfields through the band", "why_tests_cant": "A finite difference of two computed frequencies in a test only approximates the derivative at one point, and cannot tell the gradient from a value right along one direction; the dependence of the transverse basis on the wave vector makes the argument delicate.", "anchors": ["mpb/mpb.c: compute_group_velocity_component 870-947, compute_1_group_velocity_component 950-992, compute_1_group_velocity 995-1007, compute_1_group_velocity_reciprocal 1011-1015", "mpb/medium.c: init_epsilon 152-186", "src/maxwell/maxwell.c: update_maxwell_data_k 443-519"]}
{"id": "C98", "title": "Saved and loaded material grids", "statement": "Loading a material grid gives every process the same grid, whose value at each cell is the file's interpolation at the centre of the cell, with the file repeated supercell times along each direction (once where the number is not positive), brought into [0,1]. A grid with values in [0,1], in any number of dimensions, saved and loaded into a grid of the same size comes back exactly; a whole number of periods with matching sizes tiles the grid with copies of the file. Files without the dataset or with more than three dimensions are refused.", "quantifier": "for all grids and files of any sizes, all supercells and any number of processes", "why_tests_cant": "A test can compare a few grids; that the cell centres of the loop and the cell centres of the interpolation agree exactly for every size and supercell, with no reads outside the file's array, needs a proof.", "anchors": ["mpb/material_grid.c: synchronize_material_grid 688-695, save_material_grid 718-740, load_material_gridB 742-783", "src/matrixio/matrixio.c: matrixio_read_real_data 781-918", "mpb/epsilon_file.c: linear_interpolate 51-96"]}
{"id": "C99", "title": "Matrix and eigenvector objects in scripts", "statement": "sqmatrix-ref and sqmatrix-set read and change single entries and refuse indices outside the matrix. sqmatrix-mult is the matrix product in the order given, associative, and refuses matrices of different sizes; sqmatrix-diagm is the diagonal matrix of its numbers, so that products with it scale rows or columns. get-eigenvectors copies the bands asked for, set-eigenvectors puts them back and leaves the other bands; bands that do not exist are refused, and so are eigenvectors of another grid.", "quantifier": "for all matrix sizes, entries, band ranges and numbers of plane waves, whatever newly allocated memory contains", "why_tests_cant": "Row-major storage passed to column-major BLAS is right for one order of the factors only, and symmetric or small test matrices hide a swap; that no entry depends on uninitialised memory cannot be seen by running.", "anchors": ["mpb/matrix-smob.c: evectmatrix_slice2scm 135-146, sqmatrix2scm 148-157, sqmatrix_ref 206-216, sqmatrix_set 218-225, sqmatrix_mult 227-240, sqmatrix_diagm 242-254, get_eigenvectors 269-274, set_eigenvectors 276-284", "src/matrices/sqmatrix.c: sqmatrix_copy 61-65, sqmatrix_AeBC 160-167", "src/matrices/evectmatrix.c: evectmatrix_copy_slice 45-61"]}
{"id": "C100", "title": "The dielectric tensor and stored fields at a point", "statement": "At every point of space get-epsilon-inverse-tensor-point gives a Hermitian tensor whose form is the periodic interpolation of those of the grid points, so it keeps their bounds and is positive definite with them; at grid points it is the stored tensor, and lattice vectors change nothing. get-epsilon-point lies between the dielectric constants of the grid, and is that of the material where there is only one. Complex scalar fields are interpolated and multiplied with the Bloch phase. The value of a stored vector field at a point is that of the field with its Bloch phase, whichever k points are solved after it was stored.", "quantifier": "for all grids, tensors with real or complex entries, lattice sizes, points and stored fields", "why_tests_cant": "Component-wise interpolation with different strides and offsets is tested at a few points only; positive definiteness between grid points is a statement about all points and vectors.", "anchors": ["mpb/fields.c: interp_eps_inv 657-675, get_epsilon_point 677-682, get_epsilon_inverse_tensor_point 684-700, get_bloch_cscalar_point 750-756, get_cscalar_point 758-778, cvector_field_get_point_bloch 788-802, cvector_field_get_point 804-832", "src/maxwell/maxwell.h: symmetric_matrix 45-68", "mpb/mpb.c: solve_kpoint 630", "mpb/field-smob.h: field_smob 32-43"]}
