{
 "claims": [
  {
   "property": "C01",
   "status": "proved",
   "theorems": [
    "misc_filter_keeps_exactly_box",
    "misc_filter_moves_companion_in_lockstep",
    "nan_is_never_in_box",
    "misc_filter_invalid_arguments",
    "nan_box_is_invalid"
   ],
   "note": "IEEE comparisons with NaN/Inf; checked array accesses"
  },
  {
   "property": "C02",
   "status": "proved",
   "theorems": [
    "misc_filter_inv_keeps_exactly_outside",
    "misc_filter_inv_moves_companion_in_lockstep",
    "misc_filter_inv_skips_nan_refuted",
    "nan_is_never_strictly_in_box",
    "misc_filter_invalid_arguments"
   ],
   "note": "source comment about NaN refuted"
  },
  {
   "property": "C03",
   "status": "proved",
   "theorems": [
    "misc_filter_nonreal_keeps_exactly_nonreal",
    "misc_filter_nonreal_invalid_arguments"
   ],
   "note": "header text contradicts the code"
  },
  {
   "property": "C04",
   "status": "proved",
   "theorems": [
    "misc_merge_result",
    "misc_merge_removed_near_survivor_refuted",
    "misc_merge_other_cases"
   ],
   "note": "for every distance relation"
  },
  {
   "property": "C05",
   "status": "proved",
   "theorems": [
    "misc_downsample_equally_spaced",
    "misc_downsample_exact_if_divides",
    "misc_downsample_errors"
   ],
   "note": "quotient D/Dsub exact"
  },
  {
   "property": "C06",
   "status": "proved",
   "theorems": [
    "misc_nextpowerof2_least",
    "misc_nextpowerof2_never_returns_above"
   ],
   "note": "64-bit wrap modelled"
  },
  {
   "property": "C07",
   "status": "proved",
   "theorems": [
    "misc_normalize_vector_power_of_two"
   ],
   "note": "Exact reals; int overflow of the exponent not modelled."
  },
  {
   "property": "C08",
   "status": "proved",
   "theorems": [
    "misc_matrix_mult_row_by_column",
    "misc_mat_mult_2x2_product",
    "misc_mat_mult_4x4_product"
   ],
   "note": "Any field, all sizes, checked arrays."
  },
  {
   "property": "C09",
   "status": "proved",
   "theorems": [
    "misc_legendre_poly_bonnet",
    "legendre_values_exist",
    "misc_legendre_poly_at_one",
    "misc_legendre_poly_at_minus_one",
    "misc_legendre_poly_parity"
   ],
   "note": "Legendre polynomials characterised by Bonnet's recursion."
  },
  {
   "property": "C10",
   "status": "proved",
   "theorems": [
    "misc_hausdorff_dist_is_least",
    "misc_hausdorff_dist_symmetric",
    "misc_hausdorff_dist_zero",
    "misc_hausdorff_dist_empty",
    "misc_l2norm2_rectangle_rule",
    "misc_l2norm2_nan_iff",
    "misc_l2norm2_phase_invariant",
    "misc_rel_err_quotient",
    "misc_rel_err_zero_iff"
   ],
   "note": "Exact reals."
  },
  {
   "property": "C11",
   "status": "proved",
   "theorems": [
    "misc_resample_total",
    "misc_resample_zero_shift",
    "misc_resample_composes",
    "misc_resample_preserves_l2",
    "misc_resample_full_step_is_cyclic_shift",
    "misc_resample_errors"
   ],
   "note": "Exact arithmetic, KissFFT model, any contents of the allocated buffers."
  },
  {
   "property": "C12",
   "status": "proved",
   "theorems": [
    "poly_eval_computes_value",
    "poly_eval_null",
    "le1_C_zero"
   ],
   "note": "exact arithmetic; NULL arguments give error 2"
  },
  {
   "property": "C13",
   "status": "proved",
   "theorems": [
    "poly_evalderiv_computes_value_and_derivative",
    "pderiv_is_the_complex_derivative"
   ],
   "note": "deg>=1 (for deg=0 and |z|>1 the C code computes 0*Inf); the formal derivative is shown to be the complex derivative"
  },
  {
   "property": "C14",
   "status": "proved",
   "theorems": [
    "next_fft_length_least",
    "next_fft_length_of_zero_never_returns"
   ],
   "note": "n=0 never terminates"
  },
  {
   "property": "C15",
   "status": "proved",
   "theorems": [
    "kf_factor_chain",
    "factor_buffer_suffices"
   ],
   "note": "any value of floor(sqrt(n)); 64 entries shown to suffice for n<2^33"
  },
  {
   "property": "C16",
   "status": "proved",
   "theorems": [
    "kiss_fft_computes_dft",
    "kiss_fft_round_trip",
    "fft_wrapper_plan_and_execute"
   ],
   "note": "exact arithmetic; OpenMP/FFTW/fixed-point branches not modelled"
  },
  {
   "property": "C17",
   "status": "proved",
   "theorems": [
    "poly_fmult_product",
    "poly_fmult_of_one_returns_uninitialised_code"
   ],
   "note": "Exact arithmetic over C with the KissFFT model; for every exponent function used in the rescaling; n>=2 (n=1 returns an uninitialised code: separate theorem)."
  },
  {
   "property": "C18",
   "status": "proved",
   "theorems": [
    "poly_fmult2x2_product"
   ],
   "note": "Array bounds are checked by the model (Ret means no access outside numel elements)."
  },
  {
   "property": "C19",
   "status": "proved",
   "theorems": [
    "poly_fmult3x3_product"
   ],
   "note": "As C18."
  },
  {
   "property": "C20",
   "status": "proved",
   "theorems": [
    "two_polys_len_no_wrap_around",
    "two_polys_multiplies",
    "two_polys_accumulates",
    "two_polys_matrix_product"
   ],
   "note": "All five modes; reuse of transforms; the 8/27-call sequences of the 2x2/3x3 versions."
  },
  {
   "property": "C21",
   "status": "proved",
   "theorems": [
    "poly_fmult_numel_value",
    "poly_fmult_product",
    "poly_fmult2x2_product",
    "poly_fmult3x3_product"
   ],
   "note": "The product theorems are stated for arrays of exactly numel elements in a model in which an access outside an array is UB."
  },
  {
   "property": "C22",
   "status": "proved",
   "theorems": [
    "poly_chirpz_evaluates",
    "poly_chirpz_fft_length",
    "poly_chirpz_errors"
   ],
   "note": "Exact arithmetic, principal powers, KissFFT model; A and W non-zero."
  },
  {
   "property": "C23",
   "status": "proved",
   "theorems": [
    "gridsearch_result",
    "gridsearch_exact_root",
    "gridsearch_invalid",
    "gridsearch_paraherm_result",
    "gridsearch_paraherm_invalid",
    "gridsearch_paraherm_once_refuted",
    "fit_point_mismatch"
   ],
   "note": "Exact arithmetic; polynomials with exactly deg+1 coefficients; general search for grid spacing eps <> 1 (eps = 1 makes the inner ring degenerate to the origin). All array accesses are checked, which includes that the in-place para-hermitian search never overwrites values still to be read. Refuted part: a root at an interior grid point is reported twice by the para-hermitian search."
  },
  {
   "property": "C24",
   "status": "proved",
   "theorems": [
    "poly_specfact_spec",
    "poly_specfact_interpolates",
    "specfact_hilbert_real_iff",
    "poly_specfact_modulus_partial",
    "poly_specfact_modulus_refuted",
    "poly_specfact_invalid",
    "poly_specfact_bad_kappa"
   ],
   "note": "Exact arithmetic, well-posed data (no logarithm of zero). The intended property (|factor| = target at the nodes) is false in general (poly_specfact_modulus_refuted: P(z)=2z+1); it holds exactly when two bins of the log-modulus spectrum vanish (specfact_hilbert_real_iff, poly_specfact_modulus_partial), because the code clears bin M/2-1 instead of the Nyquist bin."
  },
  {
   "property": "C25",
   "status": "proved",
   "theorems": [
    "akns_tables_match_names",
    "akns_others_are_flagged",
    "nse_map_keeps_name",
    "kdv_map_keeps_name",
    "kdv_vanilla_flag_is_suffix",
    "nse_tables_match_names",
    "kdv_tables_match_names",
    "man_tables_match_names",
    "method_weights_lengths",
    "man_order_of_slow_methods_refuted",
    "akns_fscatter_unknown_discretization",
    "akns_fscatter_product",
    "manakov_fscatter_unknown_discretization",
    "manakov_fscatter_product",
    "manakov_fscatter_implemented",
    "manakov_fscatter_FTES4_4B_refuted"
   ],
   "note": "Finite enumerations plus an other case; the specification is read off the documented names. The order of the slow Manakov methods is reported as 0 and FTES4_4B has a degree but is rejected by the fast scattering (both refuted); everything else holds."
  },
  {
   "property": "C26",
   "status": "proved",
   "theorems": [
    "kdv_slow_companion",
    "kdv_slow_unknown",
    "kdv_slow_same_preprocessing"
   ],
   "note": "All names."
  },
  {
   "property": "C27",
   "status": "proved",
   "theorems": [
    "akns_transforms_inverse",
    "nse_transforms_inverse",
    "kdv_transforms_inverse",
    "man_transforms_inverse",
    "transforms_reject_slow",
    "upper_half_plane_is_inside"
   ],
   "note": "Exact arithmetic, principal logarithm."
  },
  {
   "property": "C28",
   "status": "proved",
   "theorems": [
    "change_of_basis_inverse",
    "change_of_basis_derivative",
    "change_of_basis_errors",
    "kdv_change_of_basis_inverse"
   ],
   "note": "Exact arithmetic; every xi."
  },
  {
   "property": "C29",
   "status": "proved",
   "theorems": [
    "nse_phase_factors_consistent",
    "kdv_phase_factors_consistent",
    "man_phase_factors_consistent",
    "phase_factor_a_on_grid"
   ],
   "note": "Exact arithmetic."
  },
  {
   "property": "C30",
   "status": "proved",
   "theorems": [
    "phase_factors_a_b_reject_unknown",
    "phase_factor_rho_rejects_unknown_refuted"
   ],
   "note": "True for a and b; refuted for rho of NSE and KdV (NaN returned with SUCCESS)."
  },
  {
   "property": "C31",
   "status": "proved",
   "theorems": [
    "akns_preprocess_plain",
    "akns_preprocess_commutator_free",
    "akns_preprocess_derivatives",
    "akns_preprocess_errors",
    "nse_preprocess_conjugate",
    "kdv_preprocess_r_is_minus_one",
    "man_preprocess_plain",
    "man_preprocess_two_stage",
    "man_preprocess_two_steps_refuted",
    "method_weights_rows_sum_to_one",
    "commutator_free_order_conditions",
    "cf6_4_order_conditions_rounded",
    "commutator_free_time_symmetry"
   ],
   "note": "Checked array accesses, any contents of fresh memory. The Manakov version is refuted for two steps (ignored error code)."
  },
  {
   "property": "C32",
   "status": "proved",
   "theorems": [
    "fscatter_is_splitting",
    "fscatter_is_splitting_of_code_matrices",
    "expB_is_exponential",
    "split2A_basis_change",
    "fscatter_modal",
    "splitting_order",
    "splitting_order_2A",
    "splitting_order_7",
    "splitting_order_7_exact_refuted"
   ],
   "note": "Exact arithmetic. The condition sinc_args_ok excludes arguments 0<|x|<1e-8 of misc_CSINC, where the code switches to an approximation; the second theorem has no such condition. The order in the name is proved in the algebra of non-commuting power series; the rounded leading weight of 2SPLIT7A/B makes the order conditions hold only up to 2^-51."
  },
  {
   "property": "C33",
   "status": "proved",
   "theorems": [
    "akns_fscatter_product",
    "nse_fscatter_is_akns",
    "kdv_fscatter_is_akns",
    "kdv_fscatter_flag_defined",
    "akns_fscatter_invalid_arguments",
    "akns_fscatter_division_by_zero",
    "akns_fscatter_one_sample_refuted"
   ],
   "note": "For D>=2; a single sample returns an uninitialised code (refuted). Array accesses checked, buffers of the documented size."
  },
  {
   "property": "C34",
   "status": "proved",
   "theorems": [
    "sample_determinant",
    "akns_fscatter_determinant"
   ],
   "note": "Product splittings 2SPLIT1A/1B/2A/2B/2_MODAL; exact arithmetic, misc_CSINC exact."
  },
  {
   "property": "C35",
   "status": "proved",
   "theorems": [
    "man_fscatter_is_splitting",
    "man_lambda_to_z_tau",
    "expB3_is_exponential",
    "man_splitting_order",
    "manakov_fscatter_product",
    "manakov_fscatter_transfer_matrix",
    "manakov_fscatter_invalid_arguments",
    "manakov_fscatter_one_sample_refuted"
   ],
   "note": "For all ten implemented discretizations, all samples and all lambda, under the explicit condition that the case distinctions of the code for tiny arguments are not taken (or the samples are 0). The schemes have the order of their name as formal series. A single sample (D=1) is refuted (uninitialised return code)."
  },
  {
   "property": "C36",
   "status": "proved",
   "theorems": [
    "akns_fundamental_solution",
    "bo_step_is_solution",
    "es4_step_is_exponential",
    "matrix_exponential_characterised"
   ],
   "note": "Exact arithmetic. The fundamental solution is defined by the differential equation (Cderive), not by a formula; mexp is proved to be the only one."
  },
  {
   "property": "C37",
   "status": "proved",
   "theorems": [
    "bo_step_derivative",
    "es4_step_derivative",
    "akns_scatter_matrix_exact"
   ],
   "note": "Exact arithmetic. Exact for |k|>=1, where misc_CSINC_derivative is exact; explicit error bound for 1e-8<=|k|<1. The product rule over all samples is part of akns_scatter_matrix_exact."
  },
  {
   "property": "C38",
   "status": "proved",
   "theorems": [
    "bo_negative_step_is_inverse",
    "es4_negative_step_is_inverse",
    "es4_backward_arguments",
    "tes4_backward_arguments"
   ],
   "note": "Exact arithmetic, where the sinc helper is exact."
  },
  {
   "property": "C39",
   "status": "proved",
   "theorems": [
    "akns_scatter_matrix_product",
    "akns_scatter_matrix_normalisation",
    "akns_scatter_matrix_exact",
    "slow_S_determinant",
    "akns_scatter_matrix_invalid_arguments",
    "akns_scatter_matrix_fast_discretization",
    "akns_scatter_matrix_kdv_zero",
    "es4_needs_multiple_of_three",
    "nse_scatter_matrix_is_akns",
    "nse_scatter_matrix_invalid_arguments",
    "kdv_scatter_matrix_is_akns"
   ],
   "note": "All seven slow discretizations, NSE and KdV basis, with/without derivative and normalisation, all array accesses checked. D not a multiple of three makes ES4/TES4 read out of bounds (es4_needs_multiple_of_three)."
  },
  {
   "property": "C40",
   "status": "proved",
   "theorems": [
    "nse_scattering_symmetry"
   ],
   "note": "BO, CF4_2, CF4_3, ES4, TES4 (real weights), every D. The structure holds unconditionally; the conservation law where the sinc helper is exact."
  },
  {
   "property": "C41",
   "status": "proved",
   "theorems": [
    "akns_bound_states_result",
    "akns_bound_states_exact",
    "bound_state_exact_a",
    "bound_state_exact_aprime",
    "bound_state_exact_b",
    "akns_bound_states_invalid_arguments",
    "akns_bound_states_indivisible",
    "kdv_bound_state_zero",
    "nse_bound_states_is_akns",
    "kdv_bound_states_is_akns"
   ],
   "note": "Exact arithmetic, at least two given samples (D_given = 1 makes the step size infinite). akns_bound_states_result: memory safety, independence of uninitialised memory (WPHI[0], WPSI[D_given] are read uninitialised but never influence b), values for all slow discretizations up to the explicit error of the sinc helper; the exact_* theorems where that helper is exact."
  },
  {
   "property": "C42",
   "status": "proved",
   "theorems": [
    "nse_finvscatter_modal",
    "nse_finvscatter_2A_focusing",
    "nse_finvscatter_2A_defocusing_refuted",
    "kdv_finvscatter_modal",
    "nse_roundtrip_modal",
    "nse_roundtrip_2A",
    "kdv_roundtrip_modal",
    "nse_finvscatter_invalid",
    "kdv_finvscatter_invalid",
    "nse_finvscatter_size",
    "nse_finvscatter_unsupported",
    "nse_finvscatter_higher_degree_refuted",
    "kdv_finvscatter_higher_degree_refuted"
   ],
   "note": "Exact arithmetic, D=2^K>=2. 2SPLIT2_MODAL (NSE and KdV) and focusing 2SPLIT2A with eps|q|<pi/2 recover the samples exactly, also as a round trip with the forward fast scattering. Refuted parts: defocusing 2SPLIT2A uses atan instead of atanh and does not recover the sample; every discretization of degree >= 2 overruns the internal stack (undefined behaviour) instead of being rejected. Other degree-one discretizations are rejected."
  },
  {
   "property": "C43",
   "status": "proved",
   "theorems": [
    "nsev_rejects_invalid_arguments",
    "nsev_checks_all_options_first_refuted"
   ],
   "note": "Every environment of subroutines. nsev_valid lists the documented conditions."
  },
  {
   "property": "C44",
   "status": "proved",
   "theorems": [
    "nsev_restores_options",
    "nsev_changes_two_options",
    "nsev_restores_options_refuted"
   ],
   "note": "Every environment of subroutines, hypothesis pre_codes: a failing preprocessing does not report code 0. Refuted for failing calls."
  },
  {
   "property": "C45",
   "status": "proved",
   "theorems": [
    "nsev_stays_in_bounds",
    "nsev_residues_overflow_refuted",
    "nsev_richardson_needs_XI_refuted",
    "nsev_residues_need_K_refuted",
    "nsev_one_frequency_refuted",
    "nsev_Dsub_too_large_refuted",
    "nsev_both_needs_array_refuted",
    "nsev_double_free_refuted"
   ],
   "note": "For every environment whose subroutines satisfy their size contracts (env_ok) with arbitrary values and failures. The extra conditions in safe_call are each shown to be needed by a refutation."
  },
  {
   "property": "C46",
   "status": "proved",
   "theorems": [
    "newton_refinement_is_newton",
    "newton_all_allowed_steps",
    "nsev_newton_bound_states",
    "newton_niter_steps_refuted"
   ],
   "note": "Exact arithmetic; a and a' are any functions that nse_scatter_bound_states computes. The API-level theorem is for calls without filtering."
  },
  {
   "property": "C47",
   "status": "proved",
   "theorems": [
    "nsev_richardson_contspec",
    "nsev_richardson_exact",
    "extrapolate_exact",
    "nsev_richardson_two_samples_refuted"
   ],
   "note": "Exact arithmetic, calls for the continuous spectrum (no bound states requested). D>=3."
  },
  {
   "property": "C48",
   "status": "proved",
   "theorems": [
    "nsep_rejects_invalid_arguments",
    "nsep_subsampling_fits",
    "nsep_subsampled_size"
   ],
   "note": "Exact arithmetic for the logarithms; D and Dsub at most 2^63. nsep_subsampling_fits is for every environment meeting penv_ok."
  },
  {
   "property": "C49",
   "status": "proved",
   "theorems": [
    "nsep_refinement_is_newton",
    "nsep_aux_refinement_is_newton",
    "nsep_max_evals_refuted",
    "nsep_double_point_refuted"
   ],
   "note": "Exact arithmetic; f and f' are any functions that nse_scatter_matrix computes (mono_computes)."
  },
  {
   "property": "C50",
   "status": "proved",
   "theorems": [
    "kdvv_gridsearch_result",
    "kdvv_grid_spacing_refuted",
    "kdvv_too_many_bound_states_refuted"
   ],
   "note": "Exact arithmetic, calls without Richardson extrapolation, every environment of subroutines satisfying kenv_ok. The secant formula needs an even exponent difference when normalization is on."
  },
  {
   "property": "C51",
   "status": "proved",
   "theorems": [
    "kdvv_default_options_fail"
   ],
   "note": "The property as a user would state it is refuted, universally: every call with default options, bound states requested and a positive preprocessed sample fails."
  },
  {
   "property": "C52",
   "status": "proved",
   "theorems": [
    "manakovv_succeeds",
    "manakovv_FTES4_4B_refuted",
    "manakovv_slow_bound_states_refuted",
    "manakovv_slow_richardson_refuted"
   ],
   "note": "Success for every discretization but FTES4_4B and every environment meeting menv_ok and mnever_fails; the refutations are universal: no such call succeeds."
  },
  {
   "property": "C53",
   "status": "proved",
   "theorems": [
    "inverse_XI_grid",
    "reorder_ok",
    "inverse_XI_rejects"
   ],
   "note": "Exact arithmetic. M even (=2m), discretizations whose degree and upsampling factor are not zero."
  },
  {
   "property": "C54",
   "status": "proved",
   "theorems": [
    "sort_bs_spec",
    "nsev_inverse_solitons",
    "nsev_inverse_solitons_residues",
    "nsev_inverse_double_bound_state_refuted"
   ],
   "note": "sort_bs_spec: permutation of the pairs, sorted; nsev_inverse_solitons gives the pairing at the API level. The rejection of duplicates is refuted."
  },
  {
   "property": "C55",
   "status": "proved",
   "theorems": [
    "nsev_inverse_solitons",
    "nsev_inverse_one_soliton",
    "nsev_inverse_solitons_total"
   ],
   "note": "Exact arithmetic, all K. Zakharov-Shabat problem on the whole real line, spec in InvSpec.v (reflectionless). A division by zero is UB in the model; nsev_inverse_solitons_total gives a condition under which there is none."
  },
  {
   "property": "C56",
   "status": "proved",
   "theorems": [
    "precompensate_ok"
   ],
   "note": "Exact arithmetic."
  },
  {
   "property": "C57",
   "status": "proved",
   "theorems": [
    "error_code_propagates",
    "success_means_no_error",
    "library_codes_in_range"
   ],
   "note": ""
  },
  {
   "property": "C58",
   "status": "proved",
   "theorems": [
    "printf_hook_is_per_thread_register",
    "messages_follow_hook"
   ],
   "note": ""
  },
  {
   "property": "C59",
   "status": "proved",
   "theorems": [
    "misc_CSINC_exact",
    "misc_CSINC_at_zero",
    "misc_CSINC_derivative_exact",
    "misc_CSINC_derivative_taylor",
    "misc_sech_is_inverse_cosh",
    "misc_CSINC_near_zero",
    "misc_CSINC_derivative_near_zero"
   ],
   "note": "Exact arithmetic."
  },
  {
   "property": "C60",
   "status": "proved",
   "theorems": [
    "nsev_bound_states_filtered"
   ],
   "note": "Exact arithmetic, every environment satisfying env_ok."
  },
  {
   "property": "C61",
   "status": "proved",
   "theorems": [
    "kdvv_rejects_invalid_arguments"
   ],
   "note": "kdvv_valid lists the documented conditions; kdvv_readable says that the arrays can be read."
  },
  {
   "property": "C62",
   "status": "proved",
   "theorems": [
    "kdvv_restores_options",
    "kdvv_changes_two_options",
    "kdvv_restores_options_refuted"
   ],
   "note": "Every environment with kpre_codes (a failing preprocessing does not report code 0). Refuted for failing calls."
  },
  {
   "property": "C63",
   "status": "proved",
   "theorems": [
    "kdvv_stays_in_bounds",
    "kdvv_XI_null_refuted",
    "kdvv_residues_overflow_refuted",
    "kdvv_richardson_needs_XI_refuted",
    "kdvv_residues_need_K_refuted",
    "kdvv_one_frequency_refuted"
   ],
   "note": "For every environment whose subroutines meet their size contracts (kenv_ok), with arbitrary values and failures. Conditions of kdvv_safe_call beyond the documentation are shown necessary by the refutations."
  },
  {
   "property": "C64",
   "status": "proved",
   "theorems": [
    "kdvv_bound_states_imaginary",
    "kdvv_bound_states_positive_refuted"
   ],
   "note": "kenv_ok includes that a' is zero or not real on the imaginary axis."
  },
  {
   "property": "C65",
   "status": "proved",
   "theorems": [
    "kdvv_refinement_is_newton",
    "kdvv_newton_all_steps",
    "kdvv_newton_bound_states"
   ],
   "note": "Exact arithmetic; a and a' are any functions that kdv_scatter_bound_states computes."
  },
  {
   "property": "C66",
   "status": "proved",
   "theorems": [
    "kdvv_richardson_contspec",
    "kdvv_richardson_exact"
   ],
   "note": "Exact arithmetic, calls for the continuous spectrum (no bound states requested), D>=3."
  },
  {
   "property": "C67",
   "status": "proved",
   "theorems": [
    "nsep_keeps_options",
    "nsep_default_opts_changed_refuted",
    "nsep_box_left_shifted_refuted"
   ],
   "note": "Every environment meeting penv_ok; exact arithmetic (in floating point the box may come back with a rounding error)."
  },
  {
   "property": "C68",
   "status": "proved",
   "theorems": [
    "nsep_stays_in_bounds"
   ],
   "note": "For every environment whose subroutines meet their size contracts (penv_ok), with arbitrary values and failures."
  },
  {
   "property": "C69",
   "status": "proved",
   "theorems": [
    "nsep_points_filtered"
   ],
   "note": "Exact arithmetic, every environment meeting penv_ok."
  },
  {
   "property": "C70",
   "status": "proved",
   "theorems": [
    "nsep_counts",
    "nsep_uninitialised_count_refuted",
    "nsep_root_finder_failure_ignored_refuted",
    "nsep_mixed_drops_all_points_refuted"
   ],
   "note": "Every environment meeting penv_ok."
  },
  {
   "property": "C71",
   "status": "proved",
   "theorems": [
    "manakovv_rejects_invalid_arguments"
   ],
   "note": "manv_valid lists the documented conditions."
  },
  {
   "property": "C72",
   "status": "proved",
   "theorems": [
    "manakovv_restores_options",
    "manakovv_changes_two_options",
    "manakovv_restores_options_refuted"
   ],
   "note": "Every environment with mpre_codes (a failing preprocessing does not report code 0). Refuted for failing calls."
  },
  {
   "property": "C73",
   "status": "proved",
   "theorems": [
    "manakovv_stays_in_bounds",
    "manakovv_one_frequency_refuted",
    "manakovv_Dsub_large_refuted",
    "manakovv_richardson_needs_XI_refuted",
    "manakovv_richardson_two_samples_refuted",
    "manakovv_residues_need_K_refuted",
    "manakovv_double_free_refuted"
   ],
   "note": "For every environment whose subroutines meet their size contracts (menv_ok), with arbitrary values and failures. Each condition of manv_safe_call beyond the documentation is shown necessary by a refutation."
  },
  {
   "property": "C74",
   "status": "proved",
   "theorems": [
    "manakovv_contspec_consistent"
   ],
   "note": "Exact complex arithmetic, every environment meeting menv_ok."
  },
  {
   "property": "C75",
   "status": "proved",
   "theorems": [
    "manakovv_richardson_contspec",
    "manakovv_richardson_exact"
   ],
   "note": "Exact arithmetic, D>=3."
  },
  {
   "property": "C76",
   "status": "proved",
   "theorems": [
    "manakovv_bound_states",
    "manakovv_norming_constants_refuted",
    "manakovv_defocusing_count_refuted",
    "manakovv_subsampled_step_refuted"
   ],
   "note": "Exact arithmetic, every environment meeting menv_ok."
  },
  {
   "property": "C77",
   "status": "proved",
   "theorems": [
    "nsev_inverse_rejects",
    "nsev_inverse_default",
    "nsev_inverse_unsupported"
   ],
   "note": "nsev_inverse_unsupported: combinations of contspec_type, inversion method, M, T and kappa that are not supported are refused after the argument checks, with nothing written (example: unsupported_example). The record accepted in InvArgs.v lists the conditions. Hypothesis: bs has at least K entries (documented)."
  },
  {
   "property": "C78",
   "status": "proved",
   "theorems": [
    "nsev_inverse_solitons_residues"
   ],
   "note": "Exact arithmetic, all K."
  },
  {
   "property": "C79",
   "status": "proved",
   "theorems": [
    "nft_a_unique",
    "nft_b_unique",
    "norming_constant_unique",
    "jost_left_unique",
    "jost_right_unique"
   ],
   "note": "About the specification in InvSpec.v, any potential."
  },
  {
   "property": "C80",
   "status": "proved",
   "theorems": [
    "nsev_inverse_division_by_zero_refuted",
    "nsev_inverse_solitons_total"
   ],
   "note": "The expectation is refuted; the second theorem is the conditional positive statement."
  },
  {
   "property": "C81",
   "status": "proved",
   "theorems": [
    "nse_finvscatter_recovers",
    "nse_finvscatter_focusing"
   ],
   "note": "Exact arithmetic. Generalises C42: the matrix is arbitrary. 2SPLIT2A with kappa=-1 is excluded (refuted under C42)."
  },
  {
   "property": "C82",
   "status": "proved",
   "theorems": [
    "nsev_inverse_refl_focusing",
    "nsev_inverse_refl_recovers",
    "nsev_inverse_refl_unique"
   ],
   "note": "Exact arithmetic; allocations and FFT plans succeed; nse_finvscatter is the model of FinvModel. Spec in InvCsSpec.v."
  },
  {
   "property": "C83",
   "status": "proved",
   "theorems": [
    "nsev_inverse_b_focusing",
    "nsev_inverse_b_recovers",
    "nsev_inverse_tau_focusing",
    "nsev_inverse_tau_recovers",
    "tau_trapezoid"
   ],
   "note": "Exact arithmetic; allocations and FFT plans succeed. The result of poly_specfact is arbitrary up to its length and A(0)<>0."
  },
  {
   "property": "C84",
   "status": "proved",
   "theorems": [
    "manakov_step_is_solution",
    "manakov_scatter_matrix_product",
    "manakov_scatter_matrix_rejects",
    "manakov_scatter_matrix_only_slow",
    "manakov_step_divides_by_zero_refuted",
    "manakov_step_threshold_refuted"
   ],
   "note": "Exact arithmetic; the condition regular excludes the division by zero."
  },
  {
   "property": "C85",
   "status": "proved",
   "theorems": [
    "manakov_scatter_matrix_product",
    "isometric_first_column"
   ],
   "note": "Exact arithmetic; last conjunct of manakov_scatter_matrix_product."
  },
  {
   "property": "C86",
   "status": "proved",
   "theorems": [
    "nsev_contspec_is_discrete_nft"
   ],
   "note": "Exact arithmetic; all subroutines are the models of this development (lib_env), memory allocations succeed, uninitialised memory and the exponents factored out by the polynomial tree are arbitrary. Where the code replaces sinc by a series (tiny nonzero arguments) the statement is excluded by the hypothesis scattering_exact. Example: modal_call_conserves."
  },
  {
   "property": "C87",
   "status": "proved",
   "theorems": [
    "nsev_boffetta_osborne_exact",
    "staircase_nft",
    "staircase_exists"
   ],
   "note": "As C86. Example: bo_call_exact."
  },
  {
   "property": "C88",
   "status": "proved",
   "theorems": [
    "nsev_energy_conserved"
   ],
   "note": "As C86. Example: modal_call_conserves."
  },
  {
   "property": "C89",
   "status": "proved",
   "theorems": [
    "nsev_roundtrip"
   ],
   "note": "Exact arithmetic; forward call as in C86, inverse call as in C83. The spectral factorization must return the polynomial a of this signal (hypothesis in the statement). Example: roundtrip_example."
  },
  {
   "property": "C90",
   "status": "proved",
   "theorems": [
    "nsev_discspec_is_discrete_nft"
   ],
   "note": "Exact arithmetic; environment as in C86. Hypotheses in the statement: the bound state is a zero of a, some suffix of the step product has a non-vanishing first row (else the code has no sample to read b from), and the sinc routine is not in its series branch (steps_ok; dsteps_ok for the derivative). Example: nsev_discspec_example."
  },
  {
   "property": "C91",
   "status": "proved",
   "theorems": [
    "kdvv_contspec_is_discrete_nft"
   ],
   "note": "Exact arithmetic; all subroutines are the models of this development (klib_env), memory allocations succeed, uninitialised memory and the exponents factored out by the polynomial tree are arbitrary. Tiny nonzero arguments, where the code replaces sinc by a series, are excluded by the hypothesis kdv_exact. Example: kdv_modal_call."
  },
  {
   "property": "C92",
   "status": "proved",
   "theorems": [
    "kdvv_energy_conserved"
   ],
   "note": "As C91. The samples after the code's resampling must be real (without resampling, e.g. for BO, they are the samples of the signal: po_q p = q in the statement). Example: kdv_bo_call_conserves."
  },
  {
   "property": "C93",
   "status": "proved",
   "theorems": [
    "manakovv_contspec_is_discrete_nft"
   ],
   "note": "Exact arithmetic; all subroutines are the models of this development (mlib_env), memory allocations succeed, uninitialised memory and the exponents factored out by the polynomial tree are arbitrary. Tiny nonzero samples, which the code treats as zero or by a series, and samples where the code divides by zero are excluded by the hypothesis man_scat_exact. Example: manakov_bo_call."
  },
  {
   "property": "C94",
   "status": "proved",
   "theorems": [
    "manakovv_energy_conserved"
   ],
   "note": "As C93. Examples: manakov_bo_call, manakov_suzuki_call (fast method)."
  },
  {
   "property": "C95",
   "status": "proved",
   "theorems": [
    "nsep_gridsearch_solves_floquet",
    "nsep_gridsearch_call"
   ],
   "note": "Exact arithmetic; all subroutines but the root finder are the models of this development (plib_env). The root finder poly_roots_fftgridsearch(_paraherm) is any function that stays within its array and returns nonzero points with residual at most delta (finder_ok; the points the real routine returns are described by C23, delta is their residual). 2SPLIT2_MODAL, defocusing: eps_t |q_n| < 1. Tiny nonzero samples are excluded (fast_exact). Example: nsep_gridsearch_call."
  },
  {
   "property": "C96",
   "status": "proved",
   "theorems": [
    "nsep_subsample_refines",
    "nsep_newton_refines",
    "nsep_newton_without_evaluations",
    "nsep_newton_returns_guesses_refuted"
   ],
   "note": "Exact arithmetic; all subroutines but the root finder are the models of this development (plib_env); the root finder poly_roots_fasteigen is any function that stays within its array and returns nonzero points with residual at most delta on success (eigen_ok). The auxiliary part of SUBSAMPLE_AND_REFINE needs a root finder that never fails (eigen_total), because the code ignores its return code. newton_data says what the functions used by Newton are, at the points where no sinc argument is tiny. SUBSAMPLE_AND_REFINE for D >= 4. Examples with successful calls: nsep_subsample_call, nsep_newton_without_evaluations with pnew_call. Finding: nsep_newton_returns_guesses_refuted (guesses are not moved by the shift before the refinement)."
  },
  {
   "property": "C97",
   "status": "proved",
   "theorems": [
    "nsev_richardson_discspec",
    "nsev_richardson_bound_state_exact",
    "nsev_shared_partner_residue_refuted"
   ],
   "note": "Exact arithmetic, any subroutines that keep their contracts (env_ok). DS_RESIDUES is excluded: with it the code goes wrong for most settings (C45). The residues of a bound state whose partner was already used by an earlier one are not covered, because the code overwrites the partner's residue: nsev_shared_partner_residue_refuted is a successful call (hypotheses of the theorem included) that returns two different residues for the same bound state with the same norming constant."
  },
  {
   "property": "C98",
   "status": "proved",
   "theorems": [
    "nsev_subsampling_size"
   ],
   "note": "Exact real arithmetic for the square root and the logarithm. The theorem is about the routine sub_size; C41/C90 and the theorem run_last say that fnft_nsev passes its result to the preprocessing."
  },
  {
   "property": "C99",
   "status": "proved",
   "theorems": [
    "kdvv_discspec_is_discrete_nft"
   ],
   "note": "Exact arithmetic; the FFT-type subroutines are those of klib_env as in C91. The bound states are exact zeros of a on the imaginary axis and the steps are nondegenerate (hypotheses in the statement, met in the example kdvv_discspec_example: two samples, bound state i 3 pi/4, norming constant -exp(3 pi/4))."
  },
  {
   "property": "C100",
   "status": "proved",
   "theorems": [
    "nsev_phase_rotation",
    "nsev_dilation",
    "nsev_conjugation",
    "nsev_time_shift",
    "nsev_modulation"
   ],
   "note": "Exact arithmetic; lib_env as in C86. Conjugation with 2SPLIT2_MODAL and kappa = -1 assumes step*|q| < 1 (beyond it the square root of the modal step is imaginary). Examples symmetries_example, rotated_values."
  },
  {
   "property": "C101",
   "status": "proved",
   "theorems": [
    "nsev_zero_padding"
   ],
   "note": "Exact arithmetic; lib_env as in C86. For BO the frequencies are zero or at least 1e-8/step, where the steps of the zero samples are computed exactly. Example symmetries_example."
  },
  {
   "property": "C102",
   "status": "proved",
   "theorems": [
    "nsev_inverse_safe",
    "nsev_inverse_zero_iterations_refuted",
    "nsev_inverse_unit_reflection_refuted"
   ],
   "note": "Exact arithmetic. ienv_ok states what is assumed of poly_specfact (last coefficient nonzero) and nse_finvscatter (matrices of 2^k + 1 coefficients with a nonzero leading one); for kappa = 1 the model of nse_finvscatter meets it (real_ienv_ok). The two _refuted theorems are the calls outside of the hypotheses. Example safe_case."
  },
  {
   "property": "C103",
   "status": "proved",
   "theorems": [
    "nsev_time_reversal"
   ],
   "note": "Exact arithmetic; lib_env as in C86. 2SPLIT2_MODAL with kappa = -1 assumes step*|q| < 1. Examples reversed_example, reversed_values."
  },
  {
   "property": "C104",
   "status": "proved",
   "theorems": [
    "kdvv_dilation",
    "kdvv_reality",
    "kdvv_time_shift",
    "kdvv_time_reversal",
    "kdvv_zero_padding"
   ],
   "note": "Exact arithmetic; klib_env as in C91. 2SPLIT2_MODAL: 1 + step^2*q > 0 for negative frequencies and reversal (modal_range). Reversal with a method other than BO: output type AB, since the coefficient a of the reversed signal is not among the values of the first call. Examples kdv_symmetries_example, kdv_reversed_values."
  },
  {
   "property": "C105",
   "status": "proved",
   "theorems": [
    "manakovv_rotation",
    "manakovv_polarised_is_nsev",
    "manakovv_time_shift"
   ],
   "note": "Exact arithmetic; mlib_env and lib_env as in C93 and C86. man_scat_exact is assumed of the rotated samples too (the small-argument branch of the code looks at the components separately). Examples manakov_symmetries_example, polarised_runs."
  },
  {
   "property": "C106",
   "status": "proved",
   "theorems": [
    "manakovv_dilation",
    "manakovv_conjugation",
    "manakovv_zero_padding"
   ],
   "note": "Exact arithmetic; mlib_env as in C93. man_scat_exact is assumed of the dilated samples too (the small-argument branches have absolute thresholds). The methods FTES4 are excluded from zero padding: the matrix of a sample uses its neighbours. Example manakov_dilation_example."
  },
  {
   "property": "C107",
   "status": "proved",
   "theorems": [
    "nsev_zero_signal",
    "kdvv_zero_signal",
    "manakovv_zero_signal"
   ],
   "note": "Exact arithmetic; lib_env, klib_env and mlib_env as in C86, C91 and C93; the frequencies are where the code computes the step of a zero sample exactly (cs_call, kcs_call, mcs_call; met in zero_signal_example and kdvv_zero_signal_example). 2SPLIT7A and 2SPLIT7B are left out for fnft_nsev: the weights of these tables in the code are rounded and do not add up to 1."
  }
 ]
}