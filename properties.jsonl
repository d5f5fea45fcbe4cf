{"id": "C01", "title": "Bounding-box filter keeps exactly the values in the box", "statement": "fnft__misc_filter leaves in the first *N_ptr entries of vals exactly the input values whose real and imaginary part lie in the closed box, in their original order; a companion array is compacted in lockstep so that pairs stay together; entries with a NaN part are removed; a NULL pointer or an invalid (also NaN) box gives error 2 and leaves every array and the count untouched; no index outside the first N entries is accessed.", "quantifier": "all arrays, lengths, boxes, NaN/infinite values, with or without companion array", "why_tests_cant": "NaN/Inf patterns, lengths and in-place aliasing patterns cannot be enumerated", "anchors": ["src/private/fnft__misc.c: misc_filter"]}
{"id": "C02", "title": "Inverse filter keeps exactly the values not strictly inside the box", "statement": "fnft__misc_filter_inv leaves exactly the values that are not strictly inside the box, in order and with the companion array in lockstep. The comment that NaNs are skipped is false: a value with a NaN part is always kept.", "quantifier": "all arrays, boxes, NaN values", "why_tests_cant": "in-place compaction must be right for all arrays", "anchors": ["src/private/fnft__misc.c: misc_filter_inv"]}
{"id": "C03", "title": "Non-real filter keeps exactly the values with |Im| above the tolerance", "statement": "fnft__misc_filter_nonreal keeps exactly the values with |Im| > tol_im in order (the header text says that these are removed, which is false); tol_im negative or NaN gives error 2 and no change.", "quantifier": "all arrays and tolerances", "why_tests_cant": "must hold for all arrays", "anchors": ["src/private/fnft__misc.c: misc_filter_nonreal", "include/private/fnft__misc.h"]}
{"id": "C04", "title": "Merging yields pairwise separated values and loses no cluster", "statement": "After fnft__misc_merge the surviving values are an in-order sub-sequence starting with the first value, any two survivors are at distance >= tol, and every removed value is linked to a survivor by a chain of input values with steps < tol. It is not true that each removed value is within tol of a survivor.", "quantifier": "all arrays, all symmetric distance relations / tolerances", "why_tests_cant": "cluster structure of arbitrary arrays; comparisons happen against the partly overwritten array", "anchors": ["src/private/fnft__misc.c: misc_merge"]}
{"id": "C05", "title": "Downsampling picks equally spaced in-range samples", "statement": "For every D>2 and every requested size, fnft__misc_downsample returns Dsub>=2 samples q[0], q[s], q[2s], ... with one constant stride s>=1, never reads at or beyond q[D], reports 0 and (Dsub-1)*s as first/last index, and the uncovered rest at the end is shorter than 3/2 strides; the requested size is met exactly if it divides D.", "quantifier": "all D, all requested Dsub (also 0 and > D)", "why_tests_cant": "rounding D/Dsub twice must be safe for all pairs (D,Dsub)", "anchors": ["src/private/fnft__misc.c: misc_downsample"]}
{"id": "C06", "title": "Next power of two is the least one, until it overflows", "statement": "fnft__misc_nextpowerof2(n) terminates for 1<=n<=2^63 and returns the least power of two >= n; for n=0 it returns 0; for n>2^63 the loop never terminates because the product wraps to 0.", "quantifier": "all 64-bit inputs", "why_tests_cant": "2^64 inputs", "anchors": ["src/private/fnft__misc.c: misc_nextpowerof2"]}
{"id": "C07", "title": "Vector normalisation is an exact power-of-two rescaling", "statement": "fnft__misc_normalize_vector returns an integer a and multiplies every entry by exactly 2^-a, such that the largest modulus ends up in [1,2); the all-zero vector is unchanged and 0 is returned.", "quantifier": "all complex vectors of all lengths", "why_tests_cant": "all vectors, all magnitudes", "anchors": ["include/private/fnft__misc.h: misc_normalize_vector"]}
{"id": "C08", "title": "Matrix products compute the row-by-column product", "statement": "fnft__misc_matrix_mult stores the product of the n x m matrix A and the m x p matrix B row by row in C for all sizes and only writes the n*p entries; fnft__misc_mat_mult_2x2 / _4x4 replace T by U*T.", "quantifier": "all sizes and all entries", "why_tests_cant": "all sizes", "anchors": ["include/private/fnft__misc.h: misc_matrix_mult, misc_mat_mult_2x2, misc_mat_mult_4x4"]}
{"id": "C09", "title": "Legendre routine evaluates the Legendre polynomial of the given degree", "statement": "fnft__misc_legendre_poly(n,x) satisfies Bonnet's recursion for all n, equals 1 at x=1 and (-1)^n at x=-1.", "quantifier": "all degrees n and arguments x", "why_tests_cant": "all degrees", "anchors": ["include/private/fnft__misc.h: misc_legendre_poly"]}
{"id": "C10", "title": "Error metrics: Hausdorff distance, squared L2 norm, relative error", "statement": "fnft__misc_hausdorff_dist is symmetric, non-negative for non-empty sets, zero exactly when both arrays contain the same values, and is the smallest d such that every value has a partner at distance <= d in the other array; fnft__misc_l2norm2 is NaN exactly for N=0 or a>=b and otherwise the rectangle rule; it is the same for arrays which differ by phases.", "quantifier": "all arrays of all lengths", "why_tests_cant": "all arrays", "anchors": ["src/private/fnft__misc.c: misc_hausdorff_dist, misc_l2norm2"]}
{"id": "C11", "title": "Resampling by FFT phase shift", "statement": "fnft__misc_resample with delta=0 returns the input; shifting by delta1 and then delta2 equals shifting by delta1+delta2; the l2-norm is preserved; shifting by one full step eps_t is the cyclic shift by one sample; D<=2, eps_t=0 or NULL give error 2.", "quantifier": "all D>2, all sample vectors and shifts", "why_tests_cant": "all D and all signals", "anchors": ["src/private/fnft__misc.c: misc_resample"]}
{"id": "C12", "title": "Polynomial evaluation is exact Horner evaluation on both sides of the unit circle", "statement": "fnft__poly_eval replaces every z[i] by p[0] z^deg + ... + p[deg], for |z|<=1 (Horner) and |z|>1 (reversed Horner); only the nz points are changed.", "quantifier": "all degrees, coefficients, points", "why_tests_cant": "all degrees", "anchors": ["src/private/fnft__poly_eval.c: poly_eval"]}
{"id": "C13", "title": "Polynomial evaluation with derivative", "statement": "fnft__poly_evalderiv replaces z[i] by the value p(z) and stores the formal derivative p'(z) in deriv[i] for all degrees and points in exact arithmetic.", "quantifier": "all degrees, coefficients, points", "why_tests_cant": "all degrees", "anchors": ["src/private/fnft__poly_eval.c: poly_evalderiv"]}
{"id": "C14", "title": "FFT length selection", "statement": "The FFT length chosen for n>=1 is the smallest integer >= n that has no prime factors besides 2, 3 and 5; the search terminates.", "quantifier": "all n>=1", "why_tests_cant": "unbounded n", "anchors": ["src/3rd_party/kiss_fft/kiss_fft.c: kiss_fft_next_fast_size", "include/private/fnft__fft_wrapper.h: fft_wrapper_next_fft_length"]}
{"id": "C15", "title": "FFT factorisation covers the length", "statement": "The factor buffer of a plan of length n>=1 lists pairs (p,m) with p>=2, each m the remaining cofactor, the last one 1, the product of all p equal to n; factoring terminates and needs at most log2(n) pairs (64 entries suffice for all 32-bit n).", "quantifier": "all n>=1", "why_tests_cant": "unbounded n", "anchors": ["src/3rd_party/kiss_fft/kiss_fft.c: kf_factor"]}
{"id": "C16", "title": "The mixed-radix FFT computes the DFT", "statement": "Executing a plan of length n computes out[k] = sum_j in[j] w^(jk) with w=exp(-+2 pi i/n) for every n, with radix 2, 3, 4, 5 and generic butterflies; the inverse transform after the forward transform multiplies by n.", "quantifier": "all lengths n>=1, all inputs, both directions", "why_tests_cant": "all lengths and inputs", "anchors": ["src/3rd_party/kiss_fft/kiss_fft.c: kf_work, kf_bfly2/3/4/5/generic, kiss_fft", "include/private/fnft__fft_wrapper.h"]}
{"id": "C17", "title": "Fast multiplication of many polynomials returns their product", "statement": "fnft__poly_fmult overwrites its input with the coefficients of 2^-W times the product of the n polynomials of degree deg (n not necessarily a power of two) and updates *d to n*deg and *W to the accumulated scaling exponent.", "quantifier": "all n>=2, degrees, coefficients, with and without normalisation", "why_tests_cant": "all n and degrees; padding and tree levels", "anchors": ["src/private/fnft__poly_fmult.c: poly_fmult"]}
{"id": "C18", "title": "Fast multiplication of 2x2 polynomial matrices", "statement": "fnft__poly_fmult2x2 computes 2^-W times the ordered product P[0] P[1] ... P[n-1] of n 2x2 matrices of polynomials (order matters), for n not necessarily a power of two, without reading or writing outside the documented buffer sizes.", "quantifier": "all n>=2, degrees, coefficients", "why_tests_cant": "all n and degrees, non-commutativity", "anchors": ["src/private/fnft__poly_fmult.c: poly_fmult2x2"]}
{"id": "C19", "title": "Fast multiplication of 3x3 polynomial matrices", "statement": "fnft__poly_fmult3x3 computes 2^-W times the ordered product of n 3x3 matrices of polynomials.", "quantifier": "all n>=2, degrees, coefficients", "why_tests_cant": "all n and degrees", "anchors": ["src/private/fnft__poly_fmult.c: poly_fmult3x3"]}
{"id": "C20", "title": "Product of two polynomials by FFT with reused transforms", "statement": "fnft__poly_fmult_two_polys computes the product of two degree-deg polynomials; if p1 or p2 is NULL the transforms stored by an earlier call are reused; modes 2-4 of the 2x2 and 3x3 callers accumulate sums of products. The FFT length next_fft_length(2*deg+1) is large enough that there is no wrap-around.", "quantifier": "all degrees and coefficients", "why_tests_cant": "all degrees", "anchors": ["src/private/fnft__poly_fmult.c: poly_fmult_two_polys, poly_fmult_two_polys2x2, poly_fmult_two_polys3x3"]}
{"id": "C21", "title": "Work space of the fast multiplication is sufficient", "statement": "The number of elements given by fnft__poly_fmult_numel / 2x2 / 3x3 covers every index the multiplication touches at every tree level, including the padded polynomials.", "quantifier": "all n, deg", "why_tests_cant": "all n, deg", "anchors": ["src/private/fnft__poly_fmult.c: poly_fmult_numel, poly_fmult2x2_numel, poly_fmult3x3_numel"]}
{"id": "C22", "title": "Chirp z-transform evaluates the polynomial on the spiral", "statement": "fnft__poly_chirpz returns p(1/(A W^-n)) for n=0..M-1 for all degrees, M, A, W, using FFTs of length >= deg+M, without wrap-around.", "quantifier": "all degrees, M, A, W", "why_tests_cant": "all degrees and M", "anchors": ["src/private/fnft__poly_chirpz.c: poly_chirpz"]}
{"id": "C23", "title": "Grid search: number, location and storage of the reported roots", "statement": "fnft__poly_roots_fftgridsearch_paraherm succeeds for every para-hermitian polynomial and grid of M>=2 points, writes at most M-1 roots and never overwrites grid values still to be read; it reports exactly one root per grid cell whose end values of the phase-free real function have a product <= 0, the report is the point of the unit circle where the linear interpolant vanishes, it lies in that cell and so does a true root. fnft__poly_roots_fftgridsearch reports exactly the interior grid points (at most M-2) where |p| is minimal among the nine ring values and whose Newton estimate with the least-squares slope is within one grid step, in order; a root that is an interior grid point is always reported exactly. Invalid arguments (also NaN/infinite angles) give error 2 and change nothing. It is not true that each root is reported once.", "quantifier": "all polynomials, grid sizes, arcs, array contents", "why_tests_cant": "the in-place compaction and the cell selection must be right for every polynomial and every grid", "anchors": ["src/private/fnft__poly_roots_fftgridsearch.c"]}
{"id": "C24", "title": "Spectral factorisation: values of the factor and the Hilbert transform", "statement": "fnft__poly_specfact succeeds for every well-posed polynomial without access outside its arrays and returns the (truncated) polynomial whose values at the FFT nodes are exp(x - i y), where x is the log of the required modulus (|P|, sqrt(1+|P|^2) or sqrt(1-|P|^2)) and y the transform of x with the code's multipliers; invalid arguments give error 2 and leave the result untouched. The factor has the required modulus at the nodes iff y is real, and y is real iff the bins M/2-1 and M/2 of the spectrum of x vanish; the intended property that this always holds is false, because the code clears bin M/2-1 instead of the Nyquist bin M/2.", "quantifier": "all degrees, oversampling factors, well-posed polynomials, kappa in {0,-1,1}", "why_tests_cant": "an error in one frequency bin is small for smooth data; that the modulus is right for every polynomial and every (also odd) FFT length cannot be tested", "anchors": ["src/private/fnft__poly_specfact.c: poly_specfact"]}
{"id": "C25", "title": "Discretization properties are mutually consistent", "statement": "For every discretization name of NSE, KdV and Manakov: the degree is non-zero exactly for those that the fast scattering accepts and equals the degree of the polynomials it builds; upsampling factor, order, boundary coefficient and the NSE/KdV -> AKNS name maps agree with one another. (False for Manakov FTES4_4B, which has degree 8 but is rejected by the fast scattering, and for the order 0 of the slow Manakov methods.)", "quantifier": "all enum values, including out-of-range values", "why_tests_cant": "finite per function but the claim links several functions and tables", "anchors": ["src/private/fnft__akns_discretization.c", "src/private/fnft__nse_discretization.c", "src/private/fnft__kdv_discretization.c", "src/private/fnft__manakov_discretization.c"]}
{"id": "C26", "title": "The slow companion of a fast KdV discretization", "statement": "fnft__kdv_slow_discretization maps each fast KdV discretization to one with degree 0 with the same upsampling factor, the same vanilla property, and is idempotent.", "quantifier": "all enum values", "why_tests_cant": "links several tables", "anchors": ["src/private/fnft__kdv_discretization.c: kdv_slow_discretization"]}
{"id": "C27", "title": "Spectral parameter transforms are inverse to each other", "statement": "fnft__akns_discretization_lambda_to_z followed by z_to_lambda returns lambda whenever |Re(lambda)| eps_t*2/(degree*upsampling) < pi, and z_to_lambda followed by lambda_to_z always returns z (z<>0); real lambda map to the unit circle and Im(lambda)>0 to its inside. Same for the Manakov versions.", "quantifier": "all lambda, eps_t<>0, all fast discretizations", "why_tests_cant": "continuum of arguments", "anchors": ["src/private/fnft__akns_discretization.c: akns_discretization_lambda_to_z/z_to_lambda", "src/private/fnft__manakov_discretization.c"]}
{"id": "C28", "title": "Change of basis matrices are inverse to each other", "statement": "The matrices which convert to and from scattering coordinates are inverse to each other for all xi (including the derivative blocks), xi=0 is rejected with a division-by-zero error for KdV (non-vanilla).", "quantifier": "all xi, eps_t, discretizations, derivative flags", "why_tests_cant": "continuum", "anchors": ["src/private/fnft__akns_discretization.c: akns_discretization_change_of_basis_matrix_to_S/from_S", "src/private/fnft__kdv_discretization.c"]}
{"id": "C29", "title": "Phase factors are consistent", "statement": "For every discretization of NSE, KdV and Manakov and all T, eps_t, D: the phase factor of the reflection coefficient is the one of b minus the one of a.", "quantifier": "all discretizations, D, eps_t, T", "why_tests_cant": "three independent formulas x many cases", "anchors": ["src/private/fnft__nse_discretization.c: nse_discretization_phase_factor_*", "src/private/fnft__kdv_discretization.c", "src/private/fnft__manakov_discretization.c"]}
{"id": "C30", "title": "Unknown discretizations are rejected by the phase factor functions", "statement": "A discretization without boundary coefficient is rejected with an error. (False for the reflection coefficient phase factor of NSE and KdV: the NaN test x==NAN never holds.)", "quantifier": "all enum values", "why_tests_cant": "NaN comparison", "anchors": ["src/private/fnft__nse_discretization.c", "src/private/fnft__kdv_discretization.c"]}
{"id": "C31", "title": "Preprocessing builds the right samples", "statement": "The signal preprocessing of AKNS and Manakov discretizations returns upsampling*Dsub samples, never reads outside q[0..D-1], sets r from q with the right sign, and for the plain discretizations q_preprocessed[i] = q[i*nskip]; the method weights of the commutator-free schemes sum to one.", "quantifier": "all D, Dsub, kappa", "why_tests_cant": "index arithmetic for all (D,Dsub)", "anchors": ["src/private/fnft__akns_discretization.c: akns_discretization_preprocess_signal, method_weights", "src/private/fnft__nse_discretization.c", "src/private/fnft__kdv_discretization.c", "src/private/fnft__manakov_discretization.c"]}
{"id": "C32", "title": "The fast transfer matrices are the advertised exponential splittings", "statement": "For each of the AKNS splitting discretizations, the polynomial matrix that the fast scattering builds for one sample, multiplied with its power of z, equals the exact weighted sum of products of exponentials that defines the splitting.", "quantifier": "all samples q,r, all z, all step sizes, all splitting schemes", "why_tests_cant": "the tables contain thousands of coefficients; must hold for all q,r,z", "anchors": ["src/private/fnft__akns_fscatter.c: akns_fscatter"]}
{"id": "C33", "title": "Fast scattering multiplies the samples in the right order", "statement": "The polynomial transfer matrix returned by the AKNS/NSE/KdV fast scattering evaluated at z is (up to 2^W) the product M_{D-1}(z)...M_0(z) of the per-sample matrices.", "quantifier": "all D, all signals, z", "why_tests_cant": "all D", "anchors": ["src/private/fnft__akns_fscatter.c", "src/private/fnft__nse_fscatter.c", "src/private/fnft__kdv_fscatter.c"]}
{"id": "C34", "title": "Fast transfer matrices are unimodular", "statement": "The determinant of the per-sample polynomial matrix is z^(degree) times 1 for the product splittings; hence the determinant of the transfer matrix of D samples is z^(D*degree).", "quantifier": "all samples, D", "why_tests_cant": "all samples", "anchors": ["src/private/fnft__akns_fscatter.c"]}
{"id": "C35", "title": "The Manakov fast transfer matrices are the advertised splittings", "statement": "For each Manakov splitting the 3x3 polynomial matrix of one sample equals the defining weighted sum of products of exponentials.", "quantifier": "all samples q1,q2, kappa, z, steps", "why_tests_cant": "tables", "anchors": ["src/private/fnft__manakov_fscatter.c"]}
{"id": "C36", "title": "The slow AKNS step is the exact matrix exponential", "statement": "The matrix used per sample by the slow scattering with the BO discretization is the solution at time h of U'=[[-i lambda,q],[r,i lambda]]U, U(0)=I, for all lambda, q, r, h with |h^2(lambda^2-qr)| = 0 or >= 1e-16, and within 4e-34 |h A| of it otherwise; it has determinant 1 in the first case. The ES4/TES4 step matrix is the exponential of the exponent of the method in the same sense.", "quantifier": "all lambda,q,r,h", "why_tests_cant": "continuum, degenerate case lambda^2=qr", "anchors": ["src/private/fnft__akns_scatter.c: akns_scatter_U_BO"]}
{"id": "C37", "title": "Derivative blocks of the slow AKNS step are the lambda-derivative", "statement": "The derivative entries computed with the step matrix are the exact derivative with respect to lambda if |h^2(lambda^2-qr)| >= 1, and agree with it up to 2e-18 |lambda h^2| |h A| if it is only >= 1e-16; the block-triangular product propagates them by the product rule.", "quantifier": "all lambda,q,r,h with lambda^2<>qr", "why_tests_cant": "continuum", "anchors": ["src/private/fnft__akns_scatter.c"]}
{"id": "C38", "title": "Steps with negative step size are inverse steps", "statement": "For BO and the exponential (ES4) step the matrix for -h is the inverse of the matrix for h, so the backward recursion undoes the forward one.", "quantifier": "all parameters", "why_tests_cant": "continuum", "anchors": ["src/private/fnft__akns_scatter.c"]}
{"id": "C39", "title": "Slow scattering matrix is the ordered product with exact scaling", "statement": "fnft__akns_scatter_matrix returns for each lambda the matrix S with 2^W S = T_to * U_{D-1}...U_0 * T_from; with normalisation enabled 2^W times the result equals the result without normalisation.", "quantifier": "all D, signals, lambda; normalisation on/off", "why_tests_cant": "all D", "anchors": ["src/private/fnft__akns_scatter.c: akns_scatter_matrix"]}
{"id": "C40", "title": "NSE symmetry and conservation law", "statement": "For real lambda and r=-kappa conj(q) the NSE scattering matrix has the structure [[a, -kappa conj(b)], [b, conj(a)]], and |a|^2+kappa|b|^2=1 holds (times the power of two of the normalisation) when the sinc helper is exact, for every number of samples.", "quantifier": "all real lambda, all D, all signals, kappa=+-1", "why_tests_cant": "all D, signals", "anchors": ["src/private/fnft__akns_scatter.c", "src/private/fnft__nse_scatter.c"]}
{"id": "C41", "title": "Bound states: a, a' and norming constants", "statement": "fnft__akns_scatter_bound_states (and the nse/kdv versions) never reads or writes outside its buffers, and what it returns does not depend on the initial contents of the buffers it allocates. For every bound state lambda, 2^W a is e^(i lambda (t1-t0)) times the (1,1) entry of the scattering matrix of the interval [t0,t1], and 2^W a' is its derivative with respect to lambda. b is the quotient phi_1/psi_1 of the solutions started from the left and from the right, taken at the sample at which phi_1/psi_1 and phi_2/psi_2 agree best; at a zero of a, phi = b psi holds with the same b at every sample and this b is returned, unless no sample can be used, in which case b is left unchanged. Invalid arguments, a number of samples that is not a multiple of the upsampling factor and lambda=0 for the KdV are reported as errors and leave the outputs unchanged.", "quantifier": "all numbers of samples and bound states, all lambda, all slow discretizations, with and without normalisation, all contents of uninitialised memory", "why_tests_cant": "the interleaved storage, the accumulated exponents and the selection of b must be right for every number of samples and every lambda; tests compare a few potentials up to a tolerance", "anchors": ["src/private/fnft__akns_scatter.c: akns_scatter_bound_states", "src/private/fnft__nse_scatter.c: nse_scatter_bound_states", "src/private/fnft__kdv_scatter.c: kdv_scatter_bound_states"]}
{"id": "C42", "title": "Fast inverse scattering recovers the samples", "statement": "fnft__nse_finvscatter / fnft__kdv_finvscatter applied to the exact transfer matrix of D samples return exactly these samples (2SPLIT2_MODAL, both equations; 2SPLIT2A for focusing NSE with |eps_t q| < pi/2), in particular they undo fnft__nse_fscatter / fnft__kdv_fscatter; invalid arguments, a degree that is not a power of two and unsupported degree-one discretizations give an error. It is not true for defocusing 2SPLIT2A (atan instead of atanh), and discretizations of degree >= 2 are not rejected but run into undefined behaviour.", "quantifier": "all D=2^k, all signals satisfying the stated amplitude bound, all exact transfer matrices", "why_tests_cant": "the recursion halves the polynomial degree log2(D) times; truncated inverse polynomials must carry enough coefficients at each depth, for every D and every signal", "anchors": ["src/private/fnft__akns_finvscatter_q_from_r.inc", "src/private/fnft__nse_finvscatter.c"]}
{"id": "C43", "title": "fnft_nsev rejects invalid arguments before touching any output", "statement": "Each argument combination that include/fnft_nsev.h excludes (D<2, q, T, XI or K_ptr missing where needed, empty intervals, kappa not +1/-1, unknown discretization, slow discretization with another localization than NEWTON) makes fnft_nsev return error 2 and leaves outputs, *K_ptr and options unchanged. An invalid filtering option, on the other hand, is detected only after the continuous spectrum has been written.", "quantifier": "all argument combinations, all behaviours of the subroutines", "why_tests_cant": "the combinations of eleven arguments and eleven options cannot be enumerated", "anchors": ["src/fnft_nsev.c: fnft_nsev"]}
{"id": "C44", "title": "fnft_nsev restores the user's options", "statement": "If fnft_nsev succeeds, the options struct in use is the same after the call as before; in every case only the fields bound_state_localization and discspec_type can differ. After a failure of a subroutine they do differ, and with opts==NULL it is the library's default options that are then changed for all later calls.", "quantifier": "all calls, all points at which a subroutine or an allocation fails", "why_tests_cant": "tests do not make inner subroutines fail at each call site", "anchors": ["src/fnft_nsev.c: fnft_nsev"]}
{"id": "C45", "title": "fnft_nsev stays inside the arrays and the capacity that the user supplied", "statement": "Whatever the subroutines compute and wherever they fail, a valid call returns, all array accesses of the driver are inside the arrays, *K_ptr does not grow, bound_states is written only in its first *K_ptr entries and normconsts_or_residues/contspec only in the documented multiple. This needs conditions beyond the documented ones; without each of them there is a call with undefined behaviour: Richardson extrapolation with RESIDUES and NEWTON writes 2K values into an array of K, Richardson extrapolation reads XI (and *K_ptr, normconsts_or_residues) even if not needed, M=1 and Dsub>2D divide by zero, a failing second preprocessing leads to a double free.", "quantifier": "all valid calls, all results of the root finder and the other subroutines, all failing allocations", "why_tests_cant": "depends on how many roots pass the filters at every stage and on which of the inner calls fails", "anchors": ["src/fnft_nsev.c"]}
{"id": "C46", "title": "Newton refinement of bound states is Newton's method and is bounded", "statement": "The refinement of a bound state in fnft_nsev returns the k-th iterate of Newton's method for a and a' from the given start, for some k <= ceil(niter/2) at which the iteration had to stop (step or value below the tolerance, value zero, box left, or the limit reached); a is evaluated at most ceil(niter/2) times. The documented number niter of iterations is not reached: the loop counter advances twice per pass.", "quantifier": "all niter, tolerances, boxes, start values, all functions a, a'", "why_tests_cant": "all iteration histories; a test sees one convergent run", "anchors": ["src/fnft_nsev.c: nsev_refine_bound_states_newton"]}
{"id": "C47", "title": "Richardson extrapolation of the continuous spectrum cancels the leading error term", "statement": "A successful call of fnft_nsev with Richardson extrapolation returns at each frequency below the threshold (s v - w)/(s-1), s=(h'/h)^p, where v is the result without extrapolation and w the result for every nskip-th sample, and v at the other frequencies. If v = exact + c h^p and w = exact + c h'^p, the result is exact. With two samples both step sizes agree and the code divides by zero.", "quantifier": "all signals, sizes, step sizes, discretizations and their orders, types of continuous spectrum", "why_tests_cant": "ranges over all error constants and sizes, and the reference (the exact spectrum) is not available to a test", "anchors": ["src/fnft_nsev.c: fnft_nsev"]}
{"id": "C48", "title": "fnft_nsep argument validation and subsampling sizes", "statement": "If an argument violates the documented conditions (D not a power of two >= 2, NULL q, K_ptr or M_ptr, empty or reversed T, kappa other than +-1, sheet indices requested, filtering of an auxiliary spectrum without main spectrum) fnft_nsep returns an error and changes no array, count or option. For valid arguments the internal subsampling always yields a power-of-two size m >= 2 with m*nskip = D, whatever Dsub the user asks for, so that the assertion on the subsampled interval never fires.", "quantifier": "all argument combinations, all D = 2^k, all Dsub", "why_tests_cant": "the size is computed through logarithms and rounding for every D and Dsub; every violation must be caught before anything is written", "anchors": ["src/fnft_nsep.c: fnft_nsep, subsample_and_refine"]}
{"id": "C49", "title": "fnft_nsep refinement is Newton's method with a line search over the order of the root", "statement": "Refining a main spectrum point is the iteration z -> z - m f(z)/f'(z), where f is the trace of the monodromy matrix minus the spine value and m in {1,2} gives the smaller |f|; it ends with one more Newton step when the step or |f| is at most tol, when the point leaves the box, when the budget max_evals is used up, and with an error when f' vanishes. Refining an auxiliary spectrum point is the plain Newton iteration for b with at most max_evals evaluations. Two expectations are false: the main refinement may use more than max_evals evaluations, and a guess that is exactly a double point of the main spectrum gives an error.", "quantifier": "all functions f, f' that the scattering routine may compute, all guesses, tolerances, boxes, budgets", "why_tests_cant": "unbounded iteration histories over complex functions", "anchors": ["src/fnft_nsep.c: refine_mainspec, refine_auxspec"]}
{"id": "C50", "title": "fnft_kdvv grid search returns one bound state per sign change", "statement": "A successful fnft_kdvv call with grid search returns one bound state for each zero and each sign change of a on the search grid, in the order of the grid: before refinement it is the grid point itself or a point strictly inside its cell (the zero of the secant); if no preprocessed sample is positive, or if the grid has fewer than two points, no bound states are returned. Two intuitive expectations are false: more candidates than room gives an error and leaves *K_ptr unchanged, and neighbouring grid points are further apart than the grid_spacing option.", "quantifier": "all signals, scattering data on the grid, capacities and grid spacings", "why_tests_cant": "every sign pattern of a on every grid size is possible; the result must be right for all of them, including exact zeros and adjacent sign changes", "anchors": ["src/fnft_kdvv.c: kdvv_compute_boundstates, kdvv_gridsearch"]}
{"id": "C51", "title": "fnft_kdvv default options are usable", "statement": "Calling fnft_kdvv with the default options succeeds on valid input. This is false, and it is false for every potential with a positive preprocessed sample when bound states are requested: the default grid spacing 0 is rejected by the grid search, so the call returns an error.", "quantifier": "all calls with default options, all potentials with a positive sample", "why_tests_cant": "a test shows one failing call; that no such call can succeed needs an analysis of all paths", "anchors": ["src/fnft_kdvv.c: default_opts, kdvv_gridsearch"]}
{"id": "C52", "title": "fnft_manakovv accepts every discretization that it documents", "statement": "For every documented Manakov discretization a call with valid arguments succeeds if no subroutine and no allocation fails (for the a, b coefficients, with bound states and with Richardson extrapolation). Three documented uses always fail: FTES4_4B is rejected, and BO and CF4_2 fail whenever bound states or Richardson extrapolation are requested.", "quantifier": "all discretizations, options, signals, frequencies and non-failing subroutines", "why_tests_cant": "success must be shown for every combination of options and every subroutine result", "anchors": ["src/fnft_manakovv.c: fnft_manakovv", "src/private/fnft__manakov_discretization.c"]}
{"id": "C53", "title": "Inverse NFT: frequency grid and reordering", "statement": "fnft_nsev_inverse_XI returns an interval XI with XI[0]<XI[1] such that the M equidistant points of XI map under z=exp(2i xi eps_t/s) exactly to the M-th roots of unity (n=0 is the root just after -1, n=M-1 is -1), and the reordering inside the inverse transform places the value for root exp(2 pi i k/M) at index k, each value exactly once. Invalid arguments are rejected and XI is left unchanged.", "quantifier": "all even M, all D>=2, all T[0]<T[1], all supported discretizations, all contspec values", "why_tests_cant": "for every M, D and T; an index off by one for some M, or a branch error of the complex logarithm, cannot be excluded by samples", "anchors": ["src/fnft_nsev_inverse.c: fnft_nsev_inverse_XI, remove_boundary_conds_and_reorder_for_fft"]}
{"id": "C54", "title": "Inverse NFT: the order of the bound states does not matter", "statement": "fnft_nsev_inverse sorts the bound states by decreasing imaginary part and keeps every bound state paired with its norming constant or residue, so the result has the given pairs as its discrete spectrum in whatever order they are passed. Multiple bound states are an error only if they are neighbours after sorting: the documented rejection is false for [1+i, 2+i, 1+i].", "quantifier": "all K, all lists of bound states and norming constants in any order", "why_tests_cant": "all permutations and ties", "anchors": ["src/fnft_nsev_inverse.c: add_discrete_spectrum"]}
{"id": "C55", "title": "Inverse NFT: a pure discrete spectrum is inverted exactly", "statement": "If no continuous spectrum is given and fnft_nsev_inverse returns, then the code is success and q holds the samples, at the D equidistant points of T, of a potential whose nonlinear Fourier spectrum is exactly the given one: a(xi) is the Blaschke product of the bound states in the closed upper half plane, b=0 on the real line, and every bound state has the given norming constant. For one bound state the call always returns and q is the closed form one-soliton.", "quantifier": "all K, distinct bound states in the upper half plane, nonzero norming constants, all T and D, all t", "why_tests_cant": "a statement about solutions of a differential equation on the whole line for every K and all complex parameters", "anchors": ["src/fnft_nsev_inverse.c: fnft_nsev_inverse, add_discrete_spectrum"]}
{"id": "C56", "title": "Inverse NFT: precompensation of the continuous spectrum preserves its modulus", "statement": "Before the inversion of a reflection coefficient the continuous spectrum at grid point xi is multiplied by the Blaschke product of the bound states at xi; its modulus at every grid point is unchanged.", "quantifier": "all M>=2, all K, all bound states in the upper half plane, all contspec", "why_tests_cant": "continuum of bound states and frequencies", "anchors": ["src/fnft_nsev_inverse.c: precompensate_for_cdt_phaseshifts"]}
{"id": "C57", "title": "Error codes propagate as non-zero and keep their class", "statement": "An error raised at any call depth comes back non-zero, with the same absolute value; it is positive only if raised by the called function itself; success is only returned if no checked subroutine failed.", "quantifier": "all call depths and codes", "why_tests_cant": "all depths", "anchors": ["src/private/fnft__errwarn.c", "include/private/fnft__errwarn.h", "include/fnft_errwarn.h"]}
{"id": "C58", "title": "The message hook is a per-thread register", "statement": "fnft_errwarn_setprintf/getprintf: get returns the last set value of that thread, NULL disables messages, nothing else changes it.", "quantifier": "all call sequences", "why_tests_cant": "all histories", "anchors": ["src/fnft_errwarn.c"]}
{"id": "C59", "title": "Sinc helper routines and sech are exact outside their thresholds", "statement": "For |x|>=1e-8 fnft__misc_CSINC(x) times x is sin(x), and it is 1 at 0; for |x|>=1 fnft__misc_CSINC_derivative(x) is the complex derivative of sin(x)/x and for |x|<1 it is exactly the sum of the first nine terms of its Taylor series and therefore within 2e-18 |x|^19 of the derivative; for 0<|x|<1e-8 fnft__misc_CSINC is within 4e-34 of sin(x)/x; fnft__misc_sech(z) cosh(z)=1.", "quantifier": "all complex x", "why_tests_cant": "continuum", "anchors": ["include/private/fnft__misc.h", "src/private/fnft__misc.c"]}
{"id": "C60", "title": "fnft_nsev returns filtered, distinct bound states", "statement": "After a successful call with bound state filtering (and without Richardson extrapolation) every returned bound state satisfies the bounds of the filter option (upper half plane; for FULL also |Re| below the resolution limit and Im below the energy bound; for MANUAL the user's box), and any two returned bound states are at least sqrt(eps) apart.", "quantifier": "all signals, all root finder results, all localization methods", "why_tests_cant": "must hold for every set of candidate roots, including clusters at the box boundary", "anchors": ["src/fnft_nsev.c: nsev_compute_boundstates"]}
{"id": "C61", "title": "fnft_kdvv rejects invalid arguments without side effects", "statement": "If an argument violates the documented conditions (fewer than two samples, NULL or non-real q, empty or reversed T, missing or reversed XI when contspec is requested, a frequency grid containing 0, bound states without K_ptr, Newton guesses not on the positive imaginary axis, unknown discretization) fnft_kdvv returns FNFT_EC_INVALID_ARGUMENT and changes no output array, not *K_ptr and no option.", "quantifier": "all argument combinations, all subroutine behaviours", "why_tests_cant": "the conditions interact and every violation must be caught before anything is written", "anchors": ["src/fnft_kdvv.c: fnft_kdvv"]}
{"id": "C62", "title": "fnft_kdvv restores the caller's options", "statement": "A successful fnft_kdvv call leaves the caller's option struct (and the library defaults) unchanged; any call changes at most bound_state_localization and discspec_type. (For failing calls the unchanged part is false: a failing Richardson call leaves them changed.)", "quantifier": "all calls and all failure points", "why_tests_cant": "depends on which subroutine fails at which point", "anchors": ["src/fnft_kdvv.c: fnft_kdvv"]}
{"id": "C63", "title": "fnft_kdvv stays within the caller's arrays", "statement": "With valid arguments and arrays of the documented sizes fnft_kdvv never accesses memory outside of them, has no undefined arithmetic and writes only the documented parts, whatever the subroutines return. The documented sizes are not enough in some cases (XI NULL with M>0, RESIDUES, Richardson without XI, M=1), for which an out-of-bounds or undefined operation is exhibited.", "quantifier": "all signals, options, capacities, subroutine results and failures", "why_tests_cant": "data-dependent indices and failing subroutines at every call site", "anchors": ["src/fnft_kdvv.c: fnft_kdvv, fnft_kdvv_base, kdvv_compute_contspec, kdvv_compute_boundstates, kdvv_compute_normconsts_or_residues"]}
{"id": "C64", "title": "fnft_kdvv returns bound states on the imaginary axis", "statement": "Every bound state that a successful fnft_kdvv call returns is purely imaginary, for both localization methods, with or without refinement and Richardson extrapolation. They need not lie in the upper half plane: a Newton iterate that leaves the search interval is kept.", "quantifier": "all signals, guesses, options and iterates", "why_tests_cant": "every iterate of every refinement must stay on the axis", "anchors": ["src/fnft_kdvv.c: kdvv_compute_boundstates, kdvv_refine_bound_states_newton"]}
{"id": "C65", "title": "fnft_kdvv refinement is the real Newton iteration on the imaginary axis", "statement": "The bound states returned for the Newton localization are the results of at most niter Newton steps for y -> Re a(iy), started at the guesses; the iteration ends early only for an exact zero, a vanishing derivative (an error), an iterate outside [0, sqrt(bound)] or a step of at most 100 EPSILON; if none of these occurs exactly niter steps are made.", "quantifier": "all guesses, iteration counts and functions a, a'", "why_tests_cant": "unbounded iteration histories over real functions", "anchors": ["src/fnft_kdvv.c: kdvv_refine_bound_states_newton"]}
{"id": "C66", "title": "fnft_kdvv Richardson extrapolation of the continuous spectrum", "statement": "With Richardson extrapolation a successful call returns at the low frequencies the extrapolation of the result of the same call without it and of the result for about half the samples, and elsewhere the former; if both have only the leading error term of the method order, the extrapolated values are exact.", "quantifier": "all signals, sizes D>=3, frequencies, discretizations", "why_tests_cant": "all sizes and stride combinations; exactness is a statement about real arithmetic", "anchors": ["src/fnft_kdvv.c: fnft_kdvv"]}
{"id": "C67", "title": "fnft_nsep changes at most the bounding box of the options", "statement": "A fnft_nsep call changes no option but bounding_box, and with filtering other than AUTO a successful call changes none. Two expectations are false: a successful call without options (or with AUTO) changes the box, and thereby the library defaults of later calls; a call with MANUAL filtering that fails leaves the user's box shifted.", "quantifier": "all calls and failure points", "why_tests_cant": "depends on which subroutine fails at which point of which method", "anchors": ["src/fnft_nsep.c: fnft_nsep, update_bounding_box_if_auto"]}
{"id": "C68", "title": "fnft_nsep stays within the caller's arrays", "statement": "With valid arguments and arrays of the documented sizes fnft_nsep never accesses memory outside of them and has no undefined arithmetic, and does not write behind *K_ptr (Newton: *K_ptr * points_per_spine) and *M_ptr entries, whatever the subroutines return, for every localization method.", "quantifier": "all signals, options, capacities, subroutine results and failures", "why_tests_cant": "data-dependent indices (number of roots found, filtered and merged) and failing subroutines at every call site", "anchors": ["src/fnft_nsep.c: fnft_nsep, gridsearch, subsample_and_refine, newton"]}
{"id": "C69", "title": "fnft_nsep returns filtered spectra", "statement": "After a successful call every returned main and auxiliary spectrum point passes the filter: with MANUAL it lies in the user's bounding box (also when a phase shift moves the spectrum), with AUTO its real part (up to the phase shift) is at most 0.9 pi/(c h) and its imaginary part at most ln(10)/(c h) in modulus.", "quantifier": "all signals, root finder results, phase shifts and localization methods", "why_tests_cant": "must hold for every set of candidate roots and every refinement result", "anchors": ["src/fnft_nsep.c: fnft_nsep, gridsearch, subsample_and_refine, newton"]}
{"id": "C70", "title": "fnft_nsep reports counts within the capacities", "statement": "After a successful call *K_ptr and *M_ptr are at most the capacities that were passed in. Three expectations are false: with GRIDSEARCH, main_spec NULL and no filtering the returned *K_ptr is an uninitialised variable; a root finder that fails for the auxiliary spectrum is not reported by subsample-and-refine; in the first stage of MIXED with no filtering and the default infinite box every point that was found is thrown away.", "quantifier": "all signals, capacities, root finder results", "why_tests_cant": "all combinations of methods, capacities and numbers of roots", "anchors": ["src/fnft_nsep.c: gridsearch, subsample_and_refine"]}
{"id": "C71", "title": "fnft_manakovv rejects invalid arguments without side effects", "statement": "If an argument violates the documented conditions (fewer than two samples, NULL q1 or q2, empty or reversed T, missing or reversed XI when contspec is requested, kappa not +-1, bound states without K_ptr, unknown discretization, a slow discretization with a localization other than Newton in the focusing case) fnft_manakovv returns FNFT_EC_INVALID_ARGUMENT and changes no output array, not *K_ptr and no option.", "quantifier": "all argument combinations, all subroutine behaviours", "why_tests_cant": "the conditions interact and every violation must be caught before anything is written", "anchors": ["src/fnft_manakovv.c: fnft_manakovv"]}
{"id": "C72", "title": "fnft_manakovv restores the caller's options", "statement": "A successful fnft_manakovv call leaves the caller's option struct (and the library defaults) unchanged; any call changes at most bound_state_localization and discspec_type. (For failing calls the unchanged part is false: a failing Richardson call for residues leaves discspec_type changed.)", "quantifier": "all calls and all failure points", "why_tests_cant": "depends on which subroutine fails at which point", "anchors": ["src/fnft_manakovv.c: fnft_manakovv"]}
{"id": "C73", "title": "fnft_manakovv stays within the caller's arrays", "statement": "With valid arguments and arrays of the documented sizes fnft_manakovv never accesses memory outside of them, has no undefined arithmetic, does not free memory twice and writes only the documented parts, whatever the subroutines return. It goes wrong in six cases that the documentation allows (M=1, Dsub > 2D, Richardson without XI, Richardson with two samples, residues with Richardson and K_ptr NULL, and a double free when the second preprocessing of a Richardson call with bound states fails).", "quantifier": "all signals, options, capacities, subroutine results and failures", "why_tests_cant": "data-dependent indices and failing subroutines at every call site", "anchors": ["src/fnft_manakovv.c: fnft_manakovv, fnft_manakovv_base, manakovv_compute_contspec, manakovv_compute_boundstates"]}
{"id": "C74", "title": "fnft_manakovv: reflection coefficients are b/a", "statement": "After a successful call with contspec_type BOTH and without Richardson extrapolation the returned a is nonzero and the two returned reflection coefficients are the quotients b1/a and b2/a of the returned b's and a at every frequency, for every discretization.", "quantifier": "all signals, frequencies, discretizations and scaling exponents", "why_tests_cant": "the phase factors of rho, a and b come from different table entries and must match for every method and every real xi", "anchors": ["src/fnft_manakovv.c: manakovv_compute_contspec", "src/private/fnft__manakov_discretization.c: fnft__manakov_discretization_phase_factor_rho/a/b"]}
{"id": "C75", "title": "fnft_manakovv Richardson extrapolation of the continuous spectrum", "statement": "With Richardson extrapolation a successful call returns at the low frequencies the extrapolation of the result of the same call without it and of the result for about half the samples, and elsewhere the former; bound states are those of the call without it; if both approximations have only the leading error term of the method order, the extrapolated values are exact.", "quantifier": "all signals, sizes D>=3, frequencies, discretizations", "why_tests_cant": "all sizes and stride combinations; exactness is a statement about real arithmetic", "anchors": ["src/fnft_manakovv.c: fnft_manakovv"]}
{"id": "C76", "title": "fnft_manakovv returns distinct bound states in the upper half plane", "statement": "After a successful focusing call at most as many bound states are returned as the caller has room for, and with filtering they lie in the closed upper half plane and are pairwise at least sqrt(eps) apart. Three documented expectations are false: normconsts_or_residues is never written; in the defocusing case *K_ptr keeps the capacity; the subsampled signal is processed with a step that is not the distance of its samples.", "quantifier": "all signals, root finder results, capacities", "why_tests_cant": "must hold for every set of candidate roots, including clusters at the boundary", "anchors": ["src/fnft_manakovv.c: manakovv_compute_boundstates, fnft_manakovv"]}
{"id": "C77", "title": "fnft_nsev_inverse rejects invalid arguments without side effects", "statement": "If an argument violates the documented conditions (D not a power of two >= 2, odd M or M<D with contspec, missing q, T, XI, bound states or norming constants, reversed T, kappa not +-1, bound states in the defocusing case or not in the upper half plane, unsupported discretization, neither spectrum given) fnft_nsev_inverse returns FNFT_EC_INVALID_ARGUMENT or FNFT_EC_SANITY_CHECK_FAILED and changes neither contspec nor q. opts=NULL means the default options.", "quantifier": "all argument combinations, all subroutine behaviours", "why_tests_cant": "the conditions interact and every violation must be caught before anything is written", "anchors": ["src/fnft_nsev_inverse.c: fnft_nsev_inverse"]}
{"id": "C78", "title": "Inverse NFT: residues are converted to norming constants", "statement": "With discspec_type RESIDUES and no continuous spectrum, if fnft_nsev_inverse returns, q holds samples of a potential with a(xi) the Blaschke product, b=0, and norming constants b_i such that the residues passed are b_i/a'(lambda_i), with a' the complex derivative of a.", "quantifier": "all K, distinct bound states, nonzero residues, all T and D", "why_tests_cant": "needs the derivative of a product of K factors and the scattering problem on the line", "anchors": ["src/fnft_nsev_inverse.c: add_discrete_spectrum"]}
{"id": "C79", "title": "The nonlinear Fourier spectrum of a potential is unique", "statement": "For every potential and every lambda in the closed upper half plane the scattering coefficient a, the coefficient b (real lambda) and the norming constant are unique: two values that satisfy the definition (via Jost solutions) are equal. This makes the statements about the inverse NFT meaningful.", "quantifier": "all potentials for which the Jost solutions exist, all lambda with Im >= 0", "why_tests_cant": "a statement about all solutions of a differential equation", "anchors": ["src/fnft_nsev_inverse.c: fnft_nsev_inverse", "include/fnft_nsev_inverse.h"]}
{"id": "C80", "title": "fnft_nsev_inverse succeeds for every valid discrete spectrum", "statement": "For all valid distinct bound states and nonzero norming constants without continuous spectrum the multi-soliton is computed. This is false: the recursion divides by zero for valid inputs (bound states 2i and i, norming constants 1 and 1/2, a sample at t=0). It returns if the intermediate vectors have no zero component.", "quantifier": "all valid discrete spectra and sampling intervals", "why_tests_cant": "the exceptional set has measure zero and random tests do not meet it", "anchors": ["src/fnft_nsev_inverse.c: add_discrete_spectrum"]}
{"id": "C81", "title": "Fast inverse scattering returns the potential with the given reflection coefficient", "statement": "For a transfer matrix whose (1,1) entry does not vanish at z=0, nse_finvscatter in the focusing case (discretizations 2SPLIT2A and 2SPLIT2_MODAL) always succeeds, and the D samples it returns have a reflection coefficient with the same first D Taylor coefficients at z=0 as the quotient of the given (2,1) and (1,1) entries. If any D samples in the range of the scheme have this property (also 2SPLIT2_MODAL, defocusing), exactly these are returned. The matrix need not be a transfer matrix of any potential.", "quantifier": "all transfer matrices with nonzero constant coefficient of entry 11, all D=2^K>=2, all step sizes", "why_tests_cant": "all polynomial matrices of all sizes; the divide-and-conquer recursion must be exact for matrices that no potential produces", "anchors": ["src/private/fnft__nse_finvscatter.c: fnft__nse_finvscatter", "src/private/fnft__akns_finvscatter_q_from_r.inc"]}
{"id": "C82", "title": "Inverse NFT of a reflection coefficient", "statement": "fnft_nsev_inverse with contspec_type REFLECTION_COEFFICIENT (method DEFAULT or the one with the reflection coefficient in the transfer matrix), focusing, without bound states, on the grid of fnft_nsev_inverse_XI: for any M>=D values c_n the call succeeds, and the returned samples have a discrete reflection coefficient whose first D Taylor coefficients at z=0 are those of the polynomial of degree less than M that has the values c_n exp(2 i xi_n T_1) at z_n = exp(2 i xi_n eps_t). No other samples in the range of the scheme have this property. In the defocusing case with 2SPLIT2_MODAL samples with this property are returned if they exist.", "quantifier": "all continuous spectra, all D=2^p>=2, even M>=D, all T, both discretizations", "why_tests_cant": "all spectra and sizes; combines the frequency grid, FFT order, phase factors, the ordering of coefficients and the inverse scattering recursion", "anchors": ["src/fnft_nsev_inverse.c: fnft_nsev_inverse, transfer_matrix_from_reflection_coefficient", "src/private/fnft__nse_finvscatter.c: fnft__nse_finvscatter", "src/private/fnft__akns_finvscatter_q_from_r.inc"]}
{"id": "C83", "title": "Inverse NFT of b(xi) and B(tau)", "statement": "fnft_nsev_inverse with contspec_type B_OF_XI or B_OF_TAU, focusing, without bound states: if the spectral factorization of the polynomial B returns A with A(0) not zero, the call succeeds and the returned samples have a discrete reflection coefficient with the first D Taylor coefficients of B/A. For B_OF_XI, B has the values b_n exp(2 i xi_n T_1) at exp(2 i xi_n eps_t); for B_OF_TAU, B(exp(2 i xi eps_t)) = exp(2 i xi T_1) times the trapezoidal rule for the Fourier integral of B(tau) over tau_n = 2 t_n, for every real xi. Samples with this property, if in the range of the scheme, are returned (also defocusing for 2SPLIT2_MODAL).", "quantifier": "all continuous spectra, all D=2^p>=2, even M>=D (B_OF_TAU: M=D, symmetric T), both discretizations, all results of the factorization", "why_tests_cant": "all spectra and sizes; index arithmetic between six arrays in opposite orders", "anchors": ["src/fnft_nsev_inverse.c: transfer_matrix_from_b_of_xi, transfer_matrix_from_B_of_tau"]}
{"id": "C84", "title": "Slow scattering for the Manakov equation multiplies exact matrix exponentials", "statement": "For the discretizations BO and CF4_2 and all signals, step sizes and spectral parameters, manakov_scatter_matrix writes for each lambda the product U_(D-1)(h)...U_0(h), where U_n is the fundamental solution of v' = P v with the n-th sample held constant (h the step size; for CF4_2 lambda/2), writes nothing else, and the product has determinant exp(i lambda D h). Samples below machine precision count as zero. Exceptions: if lambda^2 + kappa(|q1|^2+|q2|^2) = 0 the code divides by zero although the exponential exists, and the threshold for zero samples does not take the step size into account. Invalid arguments and fast discretizations are rejected and the result array is left alone.", "quantifier": "all D, signals, lambda, kappa, step sizes", "why_tests_cant": "a statement about exact solutions of a differential equation for all potentials; the exceptional set has measure zero", "anchors": ["src/private/fnft__manakov_scatter.c: fnft__manakov_scatter_matrix, manakov_scatter_U_BO"]}
{"id": "C85", "title": "Conservation law for the Manakov scattering matrix", "statement": "For real lambda and kappa=+-1 the matrix S computed by manakov_scatter_matrix satisfies S^* J S = J with J = diag(1,kappa,kappa); in particular |a|^2 + kappa (|b1|^2 + |b2|^2) = 1 for its first column.", "quantifier": "all D, signals, real lambda, step sizes, kappa=+-1", "why_tests_cant": "must hold for every signal and every number of samples", "anchors": ["src/private/fnft__manakov_scatter.c: fnft__manakov_scatter_matrix"]}
{"id": "C86", "title": "fnft_nsev returns the discrete nonlinear Fourier transform", "statement": "For every discretization, a valid call of fnft_nsev (no Richardson extrapolation) that returns FNFT_SUCCESS leaves in contspec exactly a(xi_i), b(xi_i) and/or b(xi_i)/a(xi_i) on the grid xi_i of XI, where a, b come from the product of the discretization's step matrices over all samples, with the waves entering at T[0]-eps_t/2 and leaving at T[1]+eps_t/2; entries of contspec beyond the documented length are unchanged. Fast and slow discretizations, normalization on or off, give this same result. Without bound states the call succeeds whenever type AB is requested or no a(xi_i) vanishes.", "quantifier": "all D, signals, T, M, XI, kappa, all discretizations, options and contspec types, all contents of uninitialised memory", "why_tests_cant": "all signals and sizes: polynomial tree multiplication, chirp transform, phase factors and array layout have to fit together", "anchors": ["src/fnft_nsev.c: fnft_nsev, fnft_nsev_base, nsev_compute_contspec", "src/private/fnft__nse_fscatter.c", "src/private/fnft__poly_chirpz.c", "src/private/fnft__nse_scatter.c"]}
{"id": "C87", "title": "The Boffetta-Osborne method is exact for piecewise constant signals", "statement": "With discretization BO fnft_nsev returns in contspec the exact nonlinear Fourier coefficients a(xi), b(xi) of the piecewise constant signal whose value on the interval of length eps_t around each sample point is that sample: every solution of the Zakharov-Shabat system with that signal that enters as (exp(-i xi t), 0) leaves as (a exp(-i xi t), b exp(i xi t)). There is no discretization error.", "quantifier": "all signals, D, T, xi, kappa", "why_tests_cant": "a statement about exact solutions of a differential equation for all signals", "anchors": ["src/fnft_nsev.c: fnft_nsev, nsev_compute_contspec", "src/private/fnft__akns_scatter.c"]}
{"id": "C88", "title": "fnft_nsev conserves energy", "statement": "For the discretizations BO, CF4_2, CF4_3, ES4, TES4, 2SPLIT1A/B, 2SPLIT2A/B and 2SPLIT2_MODAL the values returned in contspec satisfy |a|^2 + kappa |b|^2 = 1 at every grid point exactly (so |b/a| < 1 in the defocusing case), and in the defocusing case the call always succeeds: the division by a never fails. (2SPLIT2_MODAL, defocusing: if eps_t |q_n| < 1.)", "quantifier": "all signals, D, T, M, XI, kappa", "why_tests_cant": "must hold for every signal; discretization errors do not enter", "anchors": ["src/fnft_nsev.c: fnft_nsev, nsev_compute_contspec"]}
{"id": "C89", "title": "The inverse transform undoes the forward transform", "statement": "For 2^p samples q, the schemes 2SPLIT2_MODAL (either sign) and 2SPLIT2A (focusing), and an even number M >= D of frequencies on the interval that fnft_nsev_inverse_XI returns: if fnft_nsev is called with contspec type AB and the b part of its output is handed to fnft_nsev_inverse as B_OF_XI with the same T and kappa, and the spectral factorization inside returns the polynomial a of the signal, then both calls succeed and the inverse call returns exactly the samples q.", "quantifier": "all p >= 1, M, T, samples in the range of the scheme, previous contents of all output arrays, uninitialised memory and scale factors of the polynomial tree", "why_tests_cant": "A test compares a few signals up to a tolerance; the theorem composes the complete forward and inverse computations for all signals.", "anchors": ["src/fnft_nsev.c", "src/fnft_nsev_inverse.c: fnft_nsev_inverse, transfer_matrix_from_B_of_tau, transfer_matrix_from_b", "src/private/fnft__nse_fscatter.c: nse_fscatter", "src/private/fnft__nse_finvscatter.c: nse_finvscatter"]}
{"id": "C90", "title": "Norming constants and residues returned by fnft_nsev", "statement": "Whenever fnft_nsev succeeds and returns K > 0 bound states, then for every returned bound state lam_k that is a zero of the a-coefficient of the discretized signal the entry of normconsts_or_residues is the b-coefficient b(lam_k) (norming constant) and/or b(lam_k)/a'(lam_k) (residue, a' the complex derivative of a), in the layout selected by discspec_type: norming constants first, residues at offset K for BOTH. The coefficients are those of Boffetta-Osborne for the second-order fast methods, CF4_2 for 4SPLIT4A/B and of the chosen method itself if it is slow.", "quantifier": "all signals, D, T, localization methods, options (except Richardson extrapolation), bound states found, previous contents of the arrays, uninitialised memory", "why_tests_cant": "A test has a few signals with known eigenvalues; the theorem is about every successful call and every method.", "anchors": ["src/fnft_nsev.c", "src/fnft_nsev.c: nsev_compute_normconsts_or_residues, nsev_compute_boundstates", "src/private/fnft__akns_scatter.c: akns_scatter_bound_states"]}
{"id": "C91", "title": "fnft_kdvv returns the discrete nonlinear Fourier transform", "statement": "For every discretization (vanilla or not, fast or slow), a valid call of fnft_kdvv (no Richardson extrapolation) that returns FNFT_SUCCESS leaves in contspec exactly a(xi_i), b(xi_i) and/or b(xi_i)/a(xi_i) on the grid xi_i of XI, where a, b come from the product of the discretization's step matrices of the AKNS system with potentials q, -1 (vanilla) or -1, q, changed into the basis of the Schroedinger (KdV) scattering problem, with the waves entering at T[0]-eps_t/2 and leaving at T[1]+eps_t/2; entries of contspec beyond the documented length are unchanged. Without bound states the call succeeds whenever type AB is requested or no a(xi_i) vanishes.", "quantifier": "all D, real signals, T, M, XI without zero grid point, all discretizations, options and contspec types, all contents of uninitialised memory", "why_tests_cant": "all signals and sizes: polynomial tree multiplication, change of basis inside the fast path, chirp transform, phase factors and array layout have to fit together", "anchors": ["src/fnft_kdvv.c: fnft_kdvv, fnft_kdvv_base, kdvv_compute_contspec", "src/private/fnft__kdv_fscatter.c", "src/private/fnft__kdv_scatter.c", "src/private/fnft__akns_discretization.c: fnft__akns_discretization_change_of_basis_matrix_to_S, fnft__akns_discretization_change_of_basis_matrix_from_S"]}
{"id": "C92", "title": "fnft_kdvv conserves energy", "statement": "For the discretizations BO, CF4_2, CF4_3, ES4, TES4 (vanilla or not) and real (resampled) samples the values returned in contspec satisfy |a|^2 - |b|^2 = 1 at every grid point exactly, so the reflection coefficient has modulus below one; a call without bound states always succeeds: the division by a never fails.", "quantifier": "all real signals, D, T, M, XI without zero grid point", "why_tests_cant": "must hold for every signal; discretization errors do not enter", "anchors": ["src/fnft_kdvv.c: fnft_kdvv, kdvv_compute_contspec", "src/private/fnft__kdv_scatter.c"]}
{"id": "C93", "title": "fnft_manakovv returns the discrete nonlinear Fourier transform of the vector signal", "statement": "For every implemented discretization (all fast splittings and FTES4 methods except FTES4_4B, and the slow methods BO, CF4_2), a valid call of fnft_manakovv (no Richardson extrapolation) that returns FNFT_SUCCESS leaves in contspec exactly a(xi_i), b1(xi_i), b2(xi_i) and/or b1(xi_i)/a(xi_i), b2(xi_i)/a(xi_i) on the grid of XI, where a, b1, b2 are the first column of the product of the D step matrices (the splitting of the method, or the fundamental solution of the Manakov system for the constant sample for BO and CF4_2), with the waves entering at the left edge and leaving at the right edge of the signal; this scattering matrix is unique; entries of contspec beyond the documented length are unchanged. Without bound states the call succeeds whenever no a(xi_i) vanishes (or only a, b1, b2 are wanted).", "quantifier": "all D, signals q1, q2, T, M, XI, kappa, discretizations, normalization flags, contspec types, all contents of uninitialised memory", "why_tests_cant": "all signals and sizes: nine polynomial products, chirp transform, phase factors, the half steps left out by the fast methods and the array layout have to fit together", "anchors": ["src/fnft_manakovv.c: fnft_manakovv, fnft_manakovv_base, manakovv_compute_contspec", "src/private/fnft__manakov_fscatter.c: manakov_fscatter", "src/private/fnft__manakov_scatter.c: manakov_scatter_matrix", "src/private/fnft__manakov_discretization.c"]}
{"id": "C94", "title": "fnft_manakovv conserves energy", "statement": "For the discretizations BO, CF4_2 and FTES4_suzuki the values returned in contspec satisfy |a|^2 + kappa (|b1|^2 + |b2|^2) = 1 at every grid point exactly (so |b1/a|^2 + |b2/a|^2 < 1 in the defocusing case), and in the defocusing case the call always succeeds: the division by a never fails.", "quantifier": "all signals, D, T, M, XI, kappa", "why_tests_cant": "must hold for every signal; discretization errors do not enter", "anchors": ["src/fnft_manakovv.c: fnft_manakovv, manakovv_compute_contspec", "src/private/fnft__manakov_scatter.c", "src/private/fnft__manakov_fscatter.c"]}
{"id": "C95", "title": "fnft_nsep's grid search returns points where the monodromy matrix satisfies the Floquet conditions", "statement": "Localization GRIDSEARCH, any of the fast discretizations: every main spectrum point lam returned by a successful call satisfies |trace M(lam) - 2| or |trace M(lam) + 2| <= delta (up to the known scale factor exp(Im(lam) (T1-T0)) and, with normalization, a power of two), and every returned auxiliary spectrum point satisfies |M12(lam)| <= delta in the same sense. M is the product of the step matrices of the method over one period of the signal whose quasi-periodic phase shift has been removed, taken at lam minus the corresponding shift of the spectral parameter; delta bounds the residual of the points that the polynomial root finder returns. Without filtering the call succeeds whenever the root finder does.", "quantifier": "all signals of 2^k samples, T, phase shifts, kappa, fast discretizations, filter options, array capacities, root finders, contents of uninitialised memory", "why_tests_cant": "all signals: symmetric polynomial tricks (only half of the transfer matrix is used to form the trace), midpoint coefficient updates, chirp/phase maps and shifts have to fit together", "anchors": ["src/fnft_nsep.c: fnft_nsep, gridsearch", "src/private/fnft__nse_fscatter.c: nse_fscatter", "src/private/fnft__nse_discretization.c: nse_discretization_z_to_lambda"]}
{"id": "C96", "title": "fnft_nsep's SUBSAMPLE_AND_REFINE and NEWTON return Newton refinements of the right equations", "statement": "Localization SUBSAMPLE_AND_REFINE (fast discretizations): every main spectrum point returned by a successful call results from a point z with |trace S(z) - v| <= delta (up to the scale factor exp(Im(z) (T1-T0)) and, with normalization, a power of two) by the multiplicity-adapted Newton iteration with at most max_evals evaluations applied to trace M - v and its derivative; v is one of the points_per_spine equidistant values between 2 floquet_range[0] and 2 floquet_range[1], S the monodromy matrix of the regularly subsampled signal and M that of the full signal (method BO resp. CF4_2). Every auxiliary point results in the same way, by the plain Newton iteration, from an approximate zero of S12 and refers to M12. Localization NEWTON: the same with the caller's guesses for z (the k-th guess for the n-th value v is used for that value). All refinements refer to the signal without its quasi-periodic phase shift; the results are moved back by the corresponding shift of the spectral parameter. The guesses of the caller are not moved: with max_evals = 0 NEWTON returns the guesses plus the shift.", "quantifier": "all signals of 2^k samples, T, phase shifts, kappa, discretizations, Floquet ranges, points per spine, subsampling factors, filter options, guesses, max_evals, capacities, root finders with residual delta, contents of uninitialised memory", "why_tests_cant": "all signals: subsampling, midpoint coefficient updates per spine value, exponents factored out, box shifts, derivative of the monodromy matrix and block layout of the guesses have to fit together; tests only see isolated examples with loose tolerances", "anchors": ["src/fnft_nsep.c: fnft_nsep, subsample_and_refine, newton, refine_mainspec, refine_auxspec", "src/private/fnft__nse_scatter.c: nse_scatter_matrix", "include/fnft_nsep.h"]}
{"id": "C97", "title": "Richardson extrapolation of the discrete spectrum is the documented extrapolation", "statement": "A successful fnft_nsev call with richardson_extrapolation_flag = 1 that also computes the discrete spectrum returns as many bound states as the same call without the flag. Each bound state is combined with the nearest bound state of a second run on about half the samples, provided that one is nearer than the step size times the modulus of the bound state: the result is the extrapolated value (r^p v - w)/(r^p - 1), r the ratio of the step sizes and p the order of the method; otherwise the bound state is unchanged. If both approximations have the leading error term only, the extrapolated bound state is exact. Norming constants are not changed; residues are norming constants divided by the extrapolated derivative of a, unless two bound states share the same nearest one.", "quantifier": "all signals, time intervals, discretizations, numbers of bound states, localization methods and subroutine results", "why_tests_cant": "the nearest bound state depends on the whole second run; tests compare a few signals with known spectra", "anchors": ["src/fnft_nsev.c: fnft_nsev (Richardson part)", "include/fnft_nsev.h: richardson_extrapolation_flag"]}
{"id": "C98", "title": "The number of samples used for the initial guesses is the requested one up to rounding", "statement": "For SUBSAMPLE_AND_REFINE, fnft_nsev computes the initial guesses from every k-th sample, where k is D/Dsub rounded to the nearest integer, and uses D/k samples rounded to the nearest integer, where Dsub is the option or, if that is zero, the integer part of sqrt(D log2(D)^2).", "quantifier": "all numbers of samples D and requested numbers Dsub", "why_tests_cant": "rounding boundaries occur for specific pairs of numbers only", "anchors": ["src/fnft_nsev.c: fnft_nsev (Dsub)", "include/fnft_nsev.h: Dsub"]}
{"id": "C99", "title": "fnft_kdvv returns the norming constants and residues of the discrete scattering data", "statement": "In a successful fnft_kdvv call that computes bound states and norming constants without Richardson extrapolation, every returned norming constant of an exact bound state (a zero of a on the imaginary axis) is b at that bound state, and every returned residue is b divided by the derivative of a, where a and b are the scattering coefficients of the product of the one-step propagators of the slow discretization that belongs to the chosen method (the Boffetta-Osborne steps of the signal itself for the methods without upsampling). With BOTH the residues follow the norming constants.", "quantifier": "all signals, time intervals, methods, grids, numbers of bound states and options; exact zeros of a on the imaginary axis", "why_tests_cant": "the identity holds for all signals and bound states; tests compare a few values up to a tolerance", "anchors": ["src/fnft_kdvv.c: fnft_kdvv, kdvv_compute_normconsts_or_residues", "src/private/fnft__kdv_scatter.c: kdv_scatter_bound_states", "include/fnft_kdvv.h"]}
{"id": "C100", "title": "Symmetries of the continuous spectrum of fnft_nsev", "statement": "Multiplying the samples by a complex number c of modulus one leaves a unchanged and multiplies b by conj(c). The samples s*q on the time window divided by s (s > 0) have at the frequencies multiplied by s the same a and b. The conjugate samples have at the negative frequencies the conjugate a and b. Moving the time window by tau leaves a unchanged and multiplies b(xi) by exp(-2 i xi tau). The samples q(t_j) exp(-2 i omega t_j) have at the frequencies increased by omega the same a and b (methods 2SPLIT2A and 2SPLIT2_MODAL). If the first of two such calls succeeds and no bound states are computed, so does the second.", "quantifier": "all signals, time windows, frequency grids, output types, unit factors c, dilations s, delays tau and frequency shifts omega; all discretizations (time shift), all discretizations without resampling (rotation, dilation, conjugation)", "why_tests_cant": "tests compare a few spectra with tabulated values; the symmetries relate two calls for every signal", "anchors": ["src/fnft_nsev.c: fnft_nsev", "src/private/fnft__akns_fscatter.c", "src/private/fnft__akns_scatter.c", "include/fnft_nsev.h"]}
{"id": "C101", "title": "Zero padding does not change the continuous spectrum of fnft_nsev", "statement": "If m zero samples are put before the samples and n zero samples after them, and the time window is extended by m and n steps, fnft_nsev returns the same a, b and reflection coefficient at all frequencies, for the discretizations without resampling except 2SPLIT7A and 2SPLIT7B (whose weights are rounded numbers that do not add up to one).", "quantifier": "all signals, time windows, numbers of zeros, frequency grids and output types", "why_tests_cant": "tests use fixed numbers of samples; the polynomials for the padded signal are different and of different degree", "anchors": ["src/fnft_nsev.c: fnft_nsev", "src/private/fnft__akns_fscatter.c", "src/private/fnft__akns_scatter.c"]}
{"id": "C102", "title": "fnft_nsev_inverse without bound states: no access outside the arrays, no division by zero, nothing else is written", "statement": "For every call of fnft_nsev_inverse with K = 0 -- any M, D, pointers, options, values, and any pattern of failing allocations and FFT plans -- the call ends and returns an error code other than INT_MIN, never reads or writes outside the arrays, never divides by zero, changes at most the first D entries of q and the first M entries of contspec, and contspec only by factors of modulus one. The method TFMATRIX_CONTAINS_AB_FROM_ITER needs a reflection coefficient of modulus below one and max_iter > 0: both are needed, since the call accepts the other values and then divides by zero (modulus one) or reports success with samples made of uninitialised memory (max_iter = 0).", "quantifier": "all arguments and options with K = 0, all contents of fresh memory, all outcomes of allocations", "why_tests_cant": "The index arithmetic depends on M, D and the option combination, and failing allocations and contents of fresh memory cannot be driven from a test.", "anchors": ["src/fnft_nsev_inverse.c:fnft_nsev_inverse", "src/fnft_nsev_inverse.c:remove_boundary_conds_and_reorder_for_fft", "src/fnft_nsev_inverse.c:transfer_matrix_from_reflection_coefficient", "src/fnft_nsev_inverse.c:transfer_matrix_from_b_of_xi", "src/fnft_nsev_inverse.c:transfer_matrix_from_B_of_tau"]}
{"id": "C103", "title": "Time reversal in fnft_nsev", "statement": "The samples in reverse order on the time window (-T1, -T0) have at the negative frequencies the continuous spectrum a2(-xi) = conj a(xi), b2(-xi) = b(xi): on the grid (-X1, -X0) the i-th entries are those of the first call at M-1-i. If the first of the two calls succeeds and no bound states are computed, so does the second.", "quantifier": "all signals, time windows, frequency grids and output types; the discretizations BO, 2SPLIT2A, 2SPLIT2B, 2SPLIT2S, 2SPLIT2_MODAL, 2SPLIT3S, 2SPLIT4A, 2SPLIT4B, 2SPLIT6A, 2SPLIT6B, 2SPLIT8A, 2SPLIT8B, whose steps are palindromic", "why_tests_cant": "tests use fixed signals; the reversed signal is multiplied in the opposite order by a different tree of polynomial products", "anchors": ["src/fnft_nsev.c: fnft_nsev", "src/private/fnft__akns_fscatter.c", "src/private/fnft__akns_scatter.c"]}
{"id": "C104", "title": "Symmetries of the continuous spectrum of fnft_kdvv", "statement": "The samples s^2*q on the time window divided by s (s > 0) have at the frequencies multiplied by s the same a and b. The values at the negative frequencies are the complex conjugates. Moving the time window by tau leaves a unchanged and multiplies b(xi) by exp(-2 i xi tau). The samples in reverse order on (-T1, -T0) have the coefficient -conj(b), and with the Boffetta-Osborne method the same a. With this method, zero samples before and after the signal change neither a nor b. If the first of two such calls succeeds and no bound states are computed, so does the second.", "quantifier": "all real signals, time windows, frequency grids, output types, dilations, delays and numbers of zeros; all discretizations (time shift), all discretizations without resampling (dilation, negative frequencies), the palindromic ones (reversal), BO and BO_VANILLA (zero padding)", "why_tests_cant": "tests compare a few spectra with tabulated values; the symmetries relate two calls for every signal", "anchors": ["src/fnft_kdvv.c: fnft_kdvv", "src/private/fnft__kdv_fscatter.c", "src/private/fnft__kdv_scatter.c", "src/private/fnft__akns_discretization.c", "include/fnft_kdvv.h"]}
{"id": "C105", "title": "Symmetries of the continuous spectrum of fnft_manakovv", "statement": "Multiplying the two-component samples (q1, q2) by a unitary 2x2 matrix U leaves a unchanged and multiplies the vector (b1, b2) by the complex conjugate of U. Samples (c1*q, c2*q) of constant polarisation, |c1|^2+|c2|^2 = 1, have the coefficient a that fnft_nsev computes for q with the method of the same name, and b1 = conj(c1)*b, b2 = conj(c2)*b. Moving the time window by tau leaves a unchanged and multiplies b1(xi) and b2(xi) by exp(-2 i xi tau). If the first of two such calls succeeds and no bound states are computed, so does the second.", "quantifier": "all signals, unitary matrices, polarisations, time windows, frequency grids, output types and delays; all discretizations without resampling (rotation), 2SPLIT3A, 3B, 4A, 4B, 6B and BO (constant polarisation), all except FTES4_4B (time shift)", "why_tests_cant": "tests compare a few spectra with tabulated values; the symmetries relate two calls, and two entry points of the library, for every signal", "anchors": ["src/fnft_manakovv.c: fnft_manakovv", "src/fnft_nsev.c: fnft_nsev", "src/private/fnft__manakov_fscatter.c", "src/private/fnft__manakov_scatter.c", "src/private/fnft__manakov_discretization.c", "include/fnft_manakovv.h"]}
{"id": "C106", "title": "Dilation, conjugation and zero padding for fnft_manakovv", "statement": "The samples (s*q1, s*q2) on the time window divided by s (s > 0) have at the frequencies multiplied by s the same a, b1 and b2. The complex conjugates of the samples have at the negative frequencies the complex conjugates of a, b1 and b2. Zero samples before and after the signal, on the time window extended accordingly, change neither a nor b1 nor b2. If the first of two such calls succeeds and no bound states are computed, so does the second.", "quantifier": "all signals, time windows, frequency grids, output types, dilations and numbers of zeros; all discretizations without resampling (dilation, conjugation), 2SPLIT3A, 3B, 4A, 4B, 6B and BO (zero padding)", "why_tests_cant": "tests compare a few spectra with tabulated values; the symmetries relate two calls for every signal", "anchors": ["src/fnft_manakovv.c: fnft_manakovv", "src/private/fnft__manakov_fscatter.c", "src/private/fnft__manakov_scatter.c", "src/private/fnft__manakov_discretization.c", "include/fnft_manakovv.h"]}
{"id": "C107", "title": "The zero signal has the trivial continuous spectrum", "statement": "A successful call of fnft_nsev, fnft_kdvv or fnft_manakovv without Richardson extrapolation on an all-zero signal writes a = 1, b = 0 (b1 = b2 = 0) and the reflection coefficient 0 at every requested frequency; and if no bound states are computed the call does succeed: the splitting schemes, the normalisation, the chirp transform and the boundary phases introduce no error of their own.", "quantifier": "all numbers of samples, time windows, frequency grids, output types and normalisations; the discretizations without resampling for fnft_nsev (2SPLIT7A and 2SPLIT7B apart), BO and BO_VANILLA for fnft_kdvv, 2SPLIT3A, 3B, 4A, 4B, 6B and BO for fnft_manakovv", "why_tests_cant": "tests use nonzero signals and compare up to tolerances that would hide a phase or step-size error of the order of the step", "anchors": ["src/fnft_nsev.c: fnft_nsev", "src/fnft_kdvv.c: fnft_kdvv", "src/fnft_manakovv.c: fnft_manakovv", "src/private/fnft__akns_fscatter.c", "src/private/fnft__akns_scatter.c", "src/private/fnft__akns_discretization.c", "src/private/fnft__manakov_fscatter.c", "src/private/fnft__manakov_discretization.c"]}
