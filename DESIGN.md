# Formal model of FastNFT/FNFT in Rocq (Coq 8.16.1)

Source: /repo (C library FNFT).  Model and proofs: `/verif/rocq/theories`.
Properties: `/verif/properties.jsonl`, status: `/verif/MANIFEST.json`, mutation log: `/verif/seeded/LOG.jsonl`.

## 1. How the code is modelled

* Function by function, small Gallina functions; every definition cites the file and lines of /repo
  it models and says where it simplifies.
* **Memory.** An array is a list of known length. Where memory safety is part of a property, reads and writes are *checked*:
  `aget`/`aset` (file `Base.v`) return `UB` (a distinct outcome) on an out-of-bounds index, and uninitialised cells are
  explicit. A theorem that says `... = Ret x` therefore includes absence of out-of-bounds accesses.
* **Integers.** `UINT` (`size_t`) is `nat`/`Z`; where wrap-around matters (`misc_nextpowerof2`) the wrap `mod 2^64` is in the model.
  `INT` is `int32_t`.
* **Floating point.** Two readings are used, and each file says which one:
  1. *exact arithmetic*: `double`/`double complex` are the elements of a field. Algebraic code (FFT, polynomial products, transfer matrices,
     Horner, matrix products...) is modelled once over an arbitrary field record `cfield` (`Base.v`), and so is executable
     over the Gaussian rationals and instantiates to the complex numbers (Coquelicot's `C`). Code with exp/log/sqrt/sin/cos is modelled over Coq's reals / Coquelicot's `C`.
     Rounding errors are not modelled: such theorems say that the *algorithm* is right.
  2. *IEEE comparisons*: where the code's behaviour with NaN/infinities is the point (filters, bounding boxes, phase factor checks), values are
     `SpecFloat.spec_float` of Coq's standard library (sign, NaN, infinities, finite), compared with the IEEE comparison functions.
* **Failure.** `malloc` failures and failing subroutines are modelled by an outcome/oracle argument where the property is about failure (error codes, option restoring).
* **External code.** EISCOR (Fortran eigenvalue solver) is an oracle. KissFFT is modelled (not FFTW).

## 2. Trusted base

* Coq's kernel (8.16.1), and coqchk as run by vcheck.
* The reading of the C source by the author of the model (the code was not run). Section 3 lists which part of the code each file models.
* The axioms that `Print Assumptions` lists for each theorem: section 5 gives them theorem by theorem. Only four axioms occur, all from the standard
  library: `FunctionalExtensionality.functional_extensionality_dep`, `ClassicalDedekindReals.sig_forall_dec`, `ClassicalDedekindReals.sig_not_dec`,
  `Classical_Prop.classic`. They come in with Coq's real numbers (and Coquelicot's theorems about them). The theorems on discrete code are closed under the global context.
* No axioms of our own, no `Admitted`, no functors or module types, no kernel check switched off.
* *Exact arithmetic.* Unless a theorem is over `spec_float`, rounding is not modelled. A theorem over C says that the algorithm, executed without
  rounding, has the property; it says nothing about the size of rounding errors.
* *Oracles.* In the drivers (`NsevModel`, `KdvvModel`, `NsepModel`, `ManvModel`, `InvModel`) the subroutines are fields of an environment record. A theorem
  that quantifies over environments holds for whatever the subroutine returns, subject to the contract (`env_ok`, `kenv_ok`, `penv_ok`, `menv_ok`) that its
  hypotheses name. These contracts are about sizes and error codes; the subroutines that are ours to model are modelled in their own files and their own theorems.

## 3. Which parts of the code are modelled

| Source in /repo/src | Model | What is modelled | What is not |
|---|---|---|---|
| `private/fnft__errwarn.c`, `fnft_errwarn.c`, `fnft__errwarn.h` | `ErrModel` | error codes, wrapping by callers, message hook per thread | text of the messages |
| `private/fnft__misc.c` | `MiscModel`, `MiscNumModel`, `ResampleModel` | every routine except printing: filters, merge, downsample, nextpowerof2, normalisation, matrix products, Legendre, metrics, sinc, resample | `misc_print_buf` |
| `private/fnft__poly_eval.c` | `PolyEvalModel` | both routines | - |
| `3rd_party/kiss_fft/kiss_fft.c`, `fnft__fft_wrapper*` | `KissModel` | factorisation, butterflies 2,3,4,5,generic, recursion, next fast size | OpenMP branch (compile-time option), FFTW back end, real-input FFT |
| `private/fnft__poly_fmult.c` | `PolyFmultModel` | poly, 2x2, 3x3 products, two-polynomial product, work space | - |
| `private/fnft__poly_chirpz.c` | `ChirpzModel` | whole file | - |
| `private/fnft__poly_roots_fftgridsearch.c` | `GridModel` | both searches | - |
| `private/fnft__poly_roots_fasteigen.c` | field of the driver environments | return code and number of roots | EISCOR (Fortran): an oracle |
| `private/fnft__poly_specfact.c` | `SpecfactModel` | whole file | - |
| `private/fnft__{akns,nse,kdv,manakov}_discretization.c` | `DiscTables`, `DiscModel`, `DiscWeights*` | tables, parameter transforms, change of basis, phase factors, preprocessing | leaks on error paths |
| `private/fnft__{akns,nse,kdv}_fscatter.c` | `FscatterTab` (machine-translated tables), `FscatterModel` | every splitting scheme | - |
| `private/fnft__manakov_fscatter.c` | `ManFscTab`, `ManFscModel` | every splitting scheme | - |
| `private/fnft__{akns,nse,kdv}_scatter.c` | `ScatterModel`, `BoundModel` | steps, derivative blocks, scattering matrix, bound states | - |
| `private/fnft__manakov_scatter.c` | `ManScatModel` | whole file | - |
| `private/fnft__{akns,nse,kdv}_finvscatter*` | `FinvModel` | layer peeling, recursion, samples from the transfer matrix | - |
| `fnft_nsev.c` | `NsevModel` | whole driver, Newton refinement, Richardson extrapolation | rounding |
| `fnft_kdvv.c` | `KdvvModel` | whole driver, grid search with regula falsi, Newton, Richardson | rounding |
| `fnft_nsep.c` | `NsepModel` | whole driver: grid search, subsample-and-refine, mixed, filters | rounding |
| `fnft_manakovv.c` | `ManvModel` | whole driver | rounding |
| `fnft_nsev_inverse.c` | `InvModel` | whole driver: continuous spectrum by all four methods, discrete spectrum by Darboux transform with and without seed | rounding |
| `fnft_version.c` | - | - | constants only |
| `private/fnft__*_testcases.c`, `test/`, `matlab/`, `python/` | - | - | test data and bindings, not part of the library's behaviour |

## 4. Plan per property

| Properties | Model | Proof |
|---|---|---|
| C01-C04 filters, merge | checked arrays, spec_float comparisons, loops as recursion on the index | loop invariant, compared with `filter` of the standard library |
| C05, C06 downsample, nextpowerof2 | Z/nat arithmetic, wrap mod 2^64, ROUND as exact half-away rounding | arithmetic (lia/nia), induction on fuel |
| C07-C11, C59 numeric helpers | R/C and cfield | algebra; resample via DFT theory; Taylor bounds for sinc |
| C12, C13 evaluation | cfield | induction on the coefficient list |
| C14-C16 kiss_fft | cfield with a primitive root w; mixed radix recursion | induction on the factor list |
| C17-C22 fast products, chirp | cfield, on the DFT contract proved in C16 | convolution theorem, tree induction, checked indices |
| C23, C24 grid search, specfact | reals, index model | invariants; refutation by computation |
| C25-C31 discretizations | enums as inductive types with an extra "other" case | case analysis, real/complex algebra |
| C32-C35 splitting tables | machine-translated coefficient tables | ring identities per scheme |
| C36-C41 slow scattering | Coquelicot C | differential equation of the matrix exponential, induction over samples |
| C42, C81 inverse scattering | cfield / C | induction over recursion depth; layer peeling for an arbitrary matrix with the given reflection coefficient |
| C43-C47, C60 fnft_nsev | driver over an environment of subroutines, checked arrays | case analysis over the decision tree, loop invariants, refutations by computed runs |
| C50, C51, C61-C66 fnft_kdvv | same | same; Newton and Richardson as algebra |
| C48, C49, C67-C70 fnft_nsep | same | same |
| C52, C71-C76 fnft_manakovv | same | same |
| C53-C56, C77-C80 inverse NFT, discrete spectrum | R/C, lists; specification by the differential equation (Jost solutions) | Darboux matrices as solutions of the ODE, uniqueness of ODE solutions, induction on the number of bound states |
| C82, C83 inverse NFT, continuous spectrum | composition of the driver with the models of FFT, specfact and fast inverse scattering | interpolation at the FFT nodes, layer peeling, uniqueness of interpolation |
| C84, C85 slow Manakov scattering | Coquelicot C, 3x3 matrices | the step matrix solves the ODE, uniqueness, induction over samples |
| C86-C88 fnft_nsev end to end | NsevModel with the models of all subroutines plugged in (lib_env); spec NftSpec, StepSpec | composition of C15-C30-type theorems; ODE on each interval, gluing; group closed under products |
| C89 forward then inverse transform | NsevModel and InvModel with all subroutines plugged in | C86 gives b on the grid, uniqueness of interpolation, C83 recovers the samples |
| C90 discrete spectrum of fnft_nsev | NsevModel with BoundModel plugged in | inversion of a successful call, C41 for every bound state, Jost relation at a zero of a |
| C91, C92 fnft_kdvv end to end | KdvvModel with the models of all subroutines plugged in (klib_env) | as C86, C88, with the change of basis; half steps left out by 2SPLIT2A and 2SPLIT2_MODAL are restored by it |
| C93, C94 fnft_manakovv end to end | ManvModel with the models of all subroutines plugged in (mlib_env); ManNft specifies the scattering matrix by fundamental solutions or splittings | composition of C84/C85, the fast products, the chirp transform and the drivers; isometry w.r.t. diag(1, kappa, kappa) of the exponentials for C94 |
| C95 fnft_nsep grid search end to end | NsepModel with the models of all subroutines but the root finder plugged in (plib_env); NsepGrid.main_point / aux_point state the Floquet conditions for the product of the step matrices | mirror symmetry of the scattering matrix turns the half-matrix trace polynomial into trace M; composition with the fast products, z_to_lambda, filters and shifts |
| C96 fnft_nsep SUBSAMPLE_AND_REFINE and NEWTON end to end | NsepModel with plib_env; specification: floquet_value (requested trace values), trace_near / aux_point (approximate solutions for the subsampled signal), newton_data (what F and F' are), refined / iterated (the Newton iterations of NsepSpec) in NsepSub, NsepSub2, NsepSub3, NsepSubTop | inversion of the successful run: each routine is peeled off with what it stored; the functions of Newton's method come from the C39 description of nse_scatter_matrix |
| C97 Richardson extrapolation, discrete spectrum | NsevModel.find_loc, richardson_bs, nsev_richardson; specification: partner (nearest bound state of the second run), lonely, extrapolate (NsevRich) in NsevRichBs | inversion of the successful run; a loop invariant over the bound states |
| C98 number of samples for the initial guesses | NsevModel.sub_size, auto_Dsub; the statement bounds the rounding errors | division with remainder |
| C99 norming constants and residues of fnft_kdvv | KdvvModel, AknsScatter model; a and b are the scattering coefficients of the slow discretization (kdv_to_akns), Cderive is the complex derivative | as C90: the bound-state routine returns the Jost ratio at the best splitting point; the KdV symmetry makes the ratio real |
| C100 symmetries of fnft_nsev | two calls of the model fnft_nsev related by `related`; C86 for both | the maps twist, identity and conjugation commute with products, sums and exponentials, hence with every splitting; induction over the samples |
| C101 zero padding | as C100 | the step of a zero sample is exp(hA) if the weights of the scheme add up to one (computed) |
| C102 safety of nsev_inverse, K = 0 | InvModel; subroutines by ienv_ok | every stage ends with arrays of the right length; modulus of the reordered spectrum below 1 is an invariant of the iteration; the constant term of the matrix handed to inverse scattering is not 0 |
| C103 time reversal | as C100 | exchanging the diagonal entries and the frequency sign is an anti-automorphism that fixes exp(A), exp(B); palindromic words; conjugate symmetry of the diagonal |
| C104 symmetries of fnft_kdvv | two calls of the model fnft_kdvv; C91 for both | as C100, C101, C103, with the change of basis: twist, conjugation and reversal of P^-1 S P; the zero sample with r = -1 becomes exp(hA) in the basis S |
| C105 symmetries of fnft_manakovv | two calls of the model fnft_manakovv, or one of it and one of the model fnft_nsev; C93 and C86 | every factor is conjugated by diag(1, conj U) (words, schemes, exponentials by uniqueness of the fundamental solution); the matrices of (q, 0) are block matrices with the 2x2 matrices of q; polarisation is the rotation of (q, 0) |
| C106 dilation, conjugation and zero padding for fnft_manakovv | two calls of the model fnft_manakovv; C93 for both | dilation: exponentials depend on the products only (both signs of the square root), fundamental solutions by the chain rule; conjugation: the same with the derivative of conj o f o conj; padding: the matrix of a zero sample is exp(hA) since the weights of the schemes add up to 1 |
| C107 the zero signal | calls of the models fnft_nsev, fnft_kdvv and fnft_manakovv on D zero samples; C86, C91 and C93 | every step of a zero sample is exp(hA) (ZeroPad, KdvSymm2, ManPad), the product is exp(DhA), and the boundary phases cancel it since D*step is the length of the widened window |
| C57, C58 error codes and message hook | state machine | induction over histories |

A theorem named `..._refuted` shows by a concrete run of the model that an expected property (or the property without one of its hypotheses) is false
of the code as it stands; the claim's statement in properties.jsonl then says what does hold. Every `*Ex.v` file (and the end of most `*Props.v` files)
contains concrete cases that meet the hypotheses of the theorems.

## 5. What Print Assumptions lists, theorem by theorem

Produced by running `Print Assumptions` on every theorem named in MANIFEST.json. Abbreviations: **FE** = `FunctionalExtensionality.functional_extensionality_dep`, **SF** = `ClassicalDedekindReals.sig_forall_dec`, **SN** = `ClassicalDedekindReals.sig_not_dec`, **CL** = `Classical_Prop.classic`; all four are axioms of the standard library (the first three define and reason about the real numbers).

**Closed under the global context (no axioms)** (51 theorems):

* ErrProps: `error_code_propagates`, `success_means_no_error`, `library_codes_in_range`, `printf_hook_is_per_thread_register`, `messages_follow_hook`
* MiscProps: `misc_filter_keeps_exactly_box`, `misc_filter_moves_companion_in_lockstep`, `nan_is_never_in_box`, `misc_filter_invalid_arguments`, `nan_box_is_invalid`, `misc_filter_inv_keeps_exactly_outside`, `misc_filter_inv_moves_companion_in_lockstep`, `misc_filter_inv_skips_nan_refuted`, `nan_is_never_strictly_in_box`, `misc_filter_nonreal_keeps_exactly_nonreal`, `misc_filter_nonreal_invalid_arguments`, `misc_merge_result`, `misc_merge_removed_near_survivor_refuted`, `misc_merge_other_cases`, `misc_downsample_equally_spaced`, `misc_downsample_exact_if_divides`, `misc_downsample_errors`, `misc_nextpowerof2_least`, `misc_nextpowerof2_never_returns_above`
* PolyEvalProps: `poly_eval_computes_value`, `poly_eval_null`, `poly_evalderiv_computes_value_and_derivative`
* KissProps: `next_fft_length_least`, `next_fft_length_of_zero_never_returns`, `kf_factor_chain`, `factor_buffer_suffices`
* PolyFmultProps: `two_polys_len_no_wrap_around`, `poly_fmult_numel_value`
* FftAppProps: `poly_chirpz_fft_length`
* MiscNumProps: `misc_matrix_mult_row_by_column`, `misc_mat_mult_2x2_product`, `misc_mat_mult_4x4_product`
* DiscProps: `nse_map_keeps_name`, `kdv_map_keeps_name`, `kdv_vanilla_flag_is_suffix`, `man_order_of_slow_methods_refuted`, `kdv_slow_companion`, `kdv_slow_unknown`, `kdv_slow_same_preprocessing`
* FscatterOrder: `splitting_order`, `splitting_order_2A`, `splitting_order_7`, `splitting_order_7_exact_refuted`
* FscatterProps: `kdv_fscatter_flag_defined`
* ManFscProps: `manakov_fscatter_implemented`, `man_splitting_order`

**SF** (1 theorems):

* InvGrid: `reorder_ok`

**SF, FE** (23 theorems):

* MiscNumProps: `misc_legendre_poly_bonnet`, `legendre_values_exist`, `misc_legendre_poly_at_one`, `misc_legendre_poly_at_minus_one`, `misc_legendre_poly_parity`
* DiscProps: `akns_tables_match_names`, `akns_others_are_flagged`, `nse_tables_match_names`, `kdv_tables_match_names`, `man_tables_match_names`, `nse_phase_factors_consistent`, `kdv_phase_factors_consistent`, `man_phase_factors_consistent`, `phase_factor_a_on_grid`, `phase_factors_a_b_reject_unknown`, `phase_factor_rho_rejects_unknown_refuted`
* ScatterProps: `es4_backward_arguments`, `tes4_backward_arguments`
* NsevRich: `extrapolate_exact`
* KdvvTop: `kdvv_grid_spacing_refuted`
* InvSort: `sort_bs_spec`
* InvEx: `nsev_inverse_double_bound_state_refuted`
* StepNft: `staircase_exists`

**SF, SN, FE** (82 theorems):

* PolyEvalProps: `le1_C_zero`, `pderiv_is_the_complex_derivative`
* KissProps: `kiss_fft_computes_dft`, `kiss_fft_round_trip`, `fft_wrapper_plan_and_execute`
* PolyFmultProps: `poly_fmult_product`, `poly_fmult_of_one_returns_uninitialised_code`, `poly_fmult2x2_product`, `poly_fmult3x3_product`, `two_polys_multiplies`, `two_polys_accumulates`, `two_polys_matrix_product`
* FftAppProps: `misc_resample_total`, `misc_resample_zero_shift`, `misc_resample_composes`, `misc_resample_preserves_l2`, `misc_resample_full_step_is_cyclic_shift`, `misc_resample_errors`
* MiscMetricProps: `misc_hausdorff_dist_is_least`, `misc_hausdorff_dist_symmetric`, `misc_hausdorff_dist_zero`, `misc_hausdorff_dist_empty`, `misc_l2norm2_rectangle_rule`, `misc_l2norm2_nan_iff`, `misc_l2norm2_phase_invariant`, `misc_rel_err_quotient`, `misc_rel_err_zero_iff`, `misc_CSINC_exact`, `misc_CSINC_at_zero`, `misc_CSINC_derivative_exact`, `misc_CSINC_derivative_taylor`, `misc_sech_is_inverse_cosh`
* DiscProps: `method_weights_lengths`, `change_of_basis_inverse`, `change_of_basis_derivative`, `change_of_basis_errors`, `kdv_change_of_basis_inverse`
* DiscPreProps: `akns_preprocess_plain`, `akns_preprocess_commutator_free`, `akns_preprocess_derivatives`, `akns_preprocess_errors`
* DiscWeights: `method_weights_rows_sum_to_one`, `commutator_free_order_conditions`, `cf6_4_order_conditions_rounded`, `commutator_free_time_symmetry`
* DiscPreNse: `nse_preprocess_conjugate`, `kdv_preprocess_r_is_minus_one`, `man_preprocess_plain`, `man_preprocess_two_stage`, `man_preprocess_two_steps_refuted`
* GridTop: `fit_point_mismatch`
* SpecfactProps: `specfact_hilbert_real_iff`
* NsevNewton: `newton_refinement_is_newton`, `newton_all_allowed_steps`, `newton_niter_steps_refuted`
* KdvvProps: `kdvv_rejects_invalid_arguments`, `kdvv_restores_options`, `kdvv_changes_two_options`
* KdvvSafe3: `kdvv_stays_in_bounds`, `kdvv_bound_states_imaginary`
* KdvvNewton: `kdvv_refinement_is_newton`, `kdvv_newton_all_steps`
* KdvvTop: `kdvv_gridsearch_result`, `kdvv_default_options_fail`, `kdvv_newton_bound_states`
* KdvvEnv: `kdvv_too_many_bound_states_refuted`, `kdvv_restores_options_refuted`, `kdvv_XI_null_refuted`, `kdvv_residues_overflow_refuted`, `kdvv_richardson_needs_XI_refuted`, `kdvv_residues_need_K_refuted`, `kdvv_one_frequency_refuted`, `kdvv_bound_states_positive_refuted`
* KdvvRich: `kdvv_richardson_contspec`, `kdvv_richardson_exact`
* NsepNewton: `nsep_refinement_is_newton`, `nsep_aux_refinement_is_newton`, `nsep_max_evals_refuted`, `nsep_double_point_refuted`
* InvPre: `precompensate_ok`
* InvCsB: `tau_trapezoid`
* ManScatTop: `isometric_first_column`

**SF, SN, CL, FE** (216 theorems):

* FftAppProps: `poly_chirpz_evaluates`, `poly_chirpz_errors`
* MiscNumProps: `misc_normalize_vector_power_of_two`
* DiscProps: `akns_transforms_inverse`, `nse_transforms_inverse`, `kdv_transforms_inverse`, `man_transforms_inverse`, `transforms_reject_slow`, `upper_half_plane_is_inside`
* MiscSincBound: `misc_CSINC_near_zero`, `misc_CSINC_derivative_near_zero`
* FscatterProps: `akns_fscatter_unknown_discretization`, `akns_fscatter_product`, `fscatter_is_splitting`, `fscatter_is_splitting_of_code_matrices`, `expB_is_exponential`, `split2A_basis_change`, `fscatter_modal`, `nse_fscatter_is_akns`, `kdv_fscatter_is_akns`, `akns_fscatter_invalid_arguments`, `akns_fscatter_division_by_zero`, `akns_fscatter_one_sample_refuted`, `sample_determinant`, `akns_fscatter_determinant`
* ManFscSample: `man_fscatter_is_splitting`
* ManFscProps: `manakov_fscatter_unknown_discretization`, `manakov_fscatter_product`, `manakov_fscatter_FTES4_4B_refuted`, `man_lambda_to_z_tau`, `expB3_is_exponential`, `manakov_fscatter_transfer_matrix`, `manakov_fscatter_invalid_arguments`, `manakov_fscatter_one_sample_refuted`
* ScatterProps: `akns_fundamental_solution`, `bo_step_is_solution`, `es4_step_is_exponential`, `matrix_exponential_characterised`, `bo_step_derivative`, `es4_step_derivative`, `bo_negative_step_is_inverse`, `es4_negative_step_is_inverse`
* ScatterMatProps: `akns_scatter_matrix_exact`, `akns_scatter_matrix_product`, `akns_scatter_matrix_normalisation`, `slow_S_determinant`
* ScatterNse: `akns_scatter_matrix_invalid_arguments`, `akns_scatter_matrix_fast_discretization`, `akns_scatter_matrix_kdv_zero`, `es4_needs_multiple_of_three`, `nse_scatter_matrix_is_akns`, `nse_scatter_matrix_invalid_arguments`, `kdv_scatter_matrix_is_akns`, `nse_scattering_symmetry`
* BoundProps: `akns_bound_states_result`
* BoundExact: `akns_bound_states_exact`, `bound_state_exact_a`, `bound_state_exact_aprime`, `bound_state_exact_b`, `akns_bound_states_invalid_arguments`, `akns_bound_states_indivisible`, `kdv_bound_state_zero`, `nse_bound_states_is_akns`, `kdv_bound_states_is_akns`
* FinvProps: `nse_finvscatter_modal`, `nse_finvscatter_2A_focusing`, `nse_finvscatter_2A_defocusing_refuted`, `kdv_finvscatter_modal`
* FinvRound: `nse_roundtrip_modal`, `nse_roundtrip_2A`, `kdv_roundtrip_modal`
* FinvErr: `nse_finvscatter_invalid`, `kdv_finvscatter_invalid`, `nse_finvscatter_size`, `nse_finvscatter_unsupported`, `nse_finvscatter_higher_degree_refuted`, `kdv_finvscatter_higher_degree_refuted`
* GridProps: `gridsearch_paraherm_result`
* GridGen: `gridsearch_result`
* GridTop: `gridsearch_exact_root`, `gridsearch_invalid`, `gridsearch_paraherm_invalid`, `gridsearch_paraherm_once_refuted`
* SpecfactProof: `poly_specfact_spec`
* SpecfactProps: `poly_specfact_invalid`, `poly_specfact_bad_kappa`
* SpecfactTop: `poly_specfact_interpolates`, `poly_specfact_modulus_partial`, `poly_specfact_modulus_refuted`
* NsevProps: `nsev_rejects_invalid_arguments`, `nsev_restores_options`, `nsev_changes_two_options`
* NsevSafe5: `nsev_stays_in_bounds`
* NsevRefuted: `nsev_checks_all_options_first_refuted`, `nsev_restores_options_refuted`, `nsev_residues_overflow_refuted`, `nsev_richardson_needs_XI_refuted`, `nsev_residues_need_K_refuted`, `nsev_one_frequency_refuted`, `nsev_Dsub_too_large_refuted`, `nsev_both_needs_array_refuted`, `nsev_double_free_refuted`
* NsevDisc2: `nsev_newton_bound_states`, `nsev_bound_states_filtered`, `nsev_subsampling_size`
* NsevRich: `nsev_richardson_contspec`, `nsev_richardson_exact`, `nsev_richardson_two_samples_refuted`
* NsepTop: `nsep_rejects_invalid_arguments`, `nsep_subsampling_fits`, `nsep_subsampled_size`, `nsep_keeps_options`, `nsep_stays_in_bounds`, `nsep_points_filtered`, `nsep_counts`
* NsepEx: `nsep_default_opts_changed_refuted`, `nsep_box_left_shifted_refuted`, `nsep_uninitialised_count_refuted`, `nsep_root_finder_failure_ignored_refuted`, `nsep_mixed_drops_all_points_refuted`
* ManvProps: `manakovv_FTES4_4B_refuted`, `manakovv_slow_bound_states_refuted`, `manakovv_slow_richardson_refuted`, `manakovv_rejects_invalid_arguments`, `manakovv_restores_options`, `manakovv_changes_two_options`
* ManvTop: `manakovv_succeeds`, `manakovv_stays_in_bounds`, `manakovv_contspec_consistent`, `manakovv_richardson_contspec`, `manakovv_richardson_exact`, `manakovv_bound_states`
* ManvEx: `manakovv_restores_options_refuted`, `manakovv_one_frequency_refuted`, `manakovv_Dsub_large_refuted`, `manakovv_richardson_needs_XI_refuted`, `manakovv_richardson_two_samples_refuted`, `manakovv_residues_need_K_refuted`, `manakovv_double_free_refuted`, `manakovv_norming_constants_refuted`, `manakovv_defocusing_count_refuted`, `manakovv_subsampled_step_refuted`
* InvUnique: `nft_a_unique`, `nft_b_unique`, `norming_constant_unique`, `jost_left_unique`, `jost_right_unique`
* InvArgs: `nsev_inverse_rejects`, `nsev_inverse_default`
* InvRej: `nsev_inverse_unsupported`
* InvTop: `nsev_inverse_solitons`, `nsev_inverse_solitons_residues`, `nsev_inverse_one_soliton`, `nsev_inverse_solitons_total`
* InvGrid: `inverse_XI_grid`, `inverse_XI_rejects`
* InvEx: `nsev_inverse_division_by_zero_refuted`
* InvPeelTop: `nse_finvscatter_recovers`, `nse_finvscatter_focusing`
* InvCsTop: `nsev_inverse_refl_focusing`, `nsev_inverse_refl_recovers`
* InvCsB: `nsev_inverse_b_focusing`, `nsev_inverse_b_recovers`, `nsev_inverse_tau_focusing`, `nsev_inverse_tau_recovers`
* InvCsEx: `nsev_inverse_refl_unique`
* ManScatProps: `manakov_step_is_solution`
* ManScatTop: `manakov_scatter_matrix_product`, `manakov_scatter_matrix_rejects`, `manakov_scatter_matrix_only_slow`, `manakov_step_divides_by_zero_refuted`, `manakov_step_threshold_refuted`
* NsevCsTop: `nsev_contspec_is_discrete_nft`
* StepNft: `staircase_nft`
* NsevStep: `nsev_boffetta_osborne_exact`
* NsevEnergy: `nsev_energy_conserved`
* Roundtrip: `nsev_roundtrip`
* NsevNc: `nsev_discspec_is_discrete_nft`
* KdvCsTop: `kdvv_contspec_is_discrete_nft`
* KdvEnergy: `kdvv_energy_conserved`
* ManCsTop: `manakovv_contspec_is_discrete_nft`
* ManEnergy: `manakovv_energy_conserved`
* NsepGridTop: `nsep_gridsearch_solves_floquet`
* NsepGridEx: `nsep_gridsearch_call`
* NsepSubTop: `nsep_subsample_refines`, `nsep_newton_refines`
* NsepSubEx: `nsep_newton_without_evaluations`, `nsep_newton_returns_guesses_refuted`
* NsevRichBs: `nsev_richardson_discspec`, `nsev_richardson_bound_state_exact`, `nsev_shared_partner_residue_refuted`
* KdvNc: `kdvv_discspec_is_discrete_nft`
* SymmTop: `nsev_phase_rotation`, `nsev_dilation`, `nsev_conjugation`
* SymmTop2: `nsev_time_shift`, `nsev_modulation`
* ZeroPad: `nsev_zero_padding`
* InvSafe: `nsev_inverse_safe`
* InvZero: `nsev_inverse_zero_iterations_refuted`, `nsev_inverse_unit_reflection_refuted`
* TimeRevTop: `nsev_time_reversal`
* KdvSymm: `kdvv_dilation`, `kdvv_reality`, `kdvv_time_reversal`
* KdvSymm2: `kdvv_time_shift`, `kdvv_zero_padding`
* ManSymmTop: `manakovv_rotation`
* ManSymmTop2: `manakovv_polarised_is_nsev`, `manakovv_time_shift`
* ManDil: `manakovv_dilation`
* ManPad: `manakovv_zero_padding`
* ManConj: `manakovv_conjugation`
* ZeroSig: `nsev_zero_signal`, `kdvv_zero_signal`, `manakovv_zero_signal`

