{
 "claims": [
  {
   "property": "C01",
   "status": "proved",
   "theorems": [
    "C01_proposals_permute",
    "C01_runs_keep_tours",
    "C01_stored_above_limit",
    "C01_reverse_first"
   ],
   "note": ""
  },
  {
   "property": "C02",
   "status": "partial",
   "theorems": [
    "C02_continuous_engines_frame",
    "C02_append_frame",
    "C02_order_engines_frame_refuted",
    "C02_order_engines_frame_partial"
   ],
   "note": "Proved for the engines on continuous parameters; refuted for the order engines (they index the ensemble with walker.id)."
  },
  {
   "property": "C03",
   "status": "partial",
   "theorems": [
    "C03_count_means_move",
    "C03_reverse_count_refuted",
    "C03_reverse_count_partial",
    "C03_execute_reports_a_try",
    "C03_execute_first_success"
   ],
   "note": "Proved for all order engines except ReverseEngine, refuted for ReverseEngine (returns 1 after a rejected last trial)."
  },
  {
   "property": "C04",
   "status": "proved",
   "theorems": [
    "C04_logL_is_minus_length",
    "C04_rotation_invariant",
    "C04_reversal_invariant",
    "C04_metrics",
    "C04_default_scale",
    "C04_oneway",
    "C04_great_circle"
   ],
   "note": ""
  },
  {
   "property": "C05",
   "status": "proved",
   "theorems": [
    "C05_ordered_and_complete",
    "C05_crop_exact",
    "C05_counter"
   ],
   "note": ""
  },
  {
   "property": "C06",
   "status": "partial",
   "theorems": [
    "C06_box_exact",
    "C06_dynamic_box_exact",
    "C06_every_phantom_enclosed_refuted",
    "C06_box_partial",
    "C06_first_request_refuted"
   ],
   "note": "Box proved exact when it is computed; refuted for a box cached before later phantoms arrived and for a first request with limit -inf."
  },
  {
   "property": "C07",
   "status": "proved",
   "theorems": [
    "C07_climbs",
    "C07_limit_never_decreases",
    "C07_final_ensemble_on_top",
    "C07_survivors_untouched"
   ],
   "note": ""
  },
  {
   "property": "C08",
   "status": "proved",
   "theorems": [
    "C08_evidence_is_sum_of_weights",
    "C08_evidence_during_the_run",
    "C08_weight_is_width_times_likelihood",
    "C08_normalised_weights",
    "C08_final_weights_are_shares",
    "C08_weeding_keeps_evidence"
   ],
   "note": ""
  },
  {
   "property": "C09",
   "status": "proved",
   "theorems": [
    "C09_mass_at_most_one",
    "C09_mass_exact",
    "C09_geometric_widths",
    "C09_remaining_mass_used_refuted"
   ],
   "note": "Sum of widths at most one, exact value during the run. Finding: the final ensemble receives only about half of the prior mass left."
  },
  {
   "property": "C10",
   "status": "proved",
   "theorems": [
    "C10_ids_unique_and_increasing"
   ],
   "note": ""
  },
  {
   "property": "C11",
   "status": "partial",
   "theorems": [
    "C11_weed_size_and_order",
    "C11_smallest_removed_refuted",
    "C11_heaviest_kept_partial"
   ],
   "note": "Size and order proved for all lists; 'smallest weights removed' refuted in general (only the two ends are compared), proved for weight profiles without an interior dip."
  },
  {
   "property": "C12",
   "status": "proved",
   "theorems": [
    "C12_average_between_extremes",
    "C12_stdev",
    "C12_median",
    "C12_modus",
    "C12_low_logL"
   ],
   "note": ""
  },
  {
   "property": "C13",
   "status": "proved",
   "theorems": [
    "C13_insert",
    "C13_delete",
    "C13_delete_after_insert",
    "C13_refused"
   ],
   "note": ""
  },
  {
   "property": "C14",
   "status": "proved",
   "theorems": [
    "C14_grow",
    "C14_shrink",
    "C14_shrink_with_kept_refuted"
   ],
   "note": "Proved when the deleted parameters are free. Finding: with a kept (fixed) parameter in the deleted slice a wrong index drops out."
  },
  {
   "property": "C15",
   "status": "partial",
   "theorems": [
    "C15_count_per_component",
    "C15_count_repeating",
    "C15_grow_succeeds",
    "C15_shrink_succeeds",
    "C15_constructor_count",
    "C15_zero_components_refuted",
    "C15_birth_keeps_walker",
    "C15_death_keeps_walker"
   ],
   "note": "Proved for per-component and repeating models, through grow/shrink histories and through births and deaths. Refuted: RepeatingModel(0, model, same=[..]) starts with len(same) parameters and is one off after growing."
  },
  {
   "property": "C16",
   "status": "proved",
   "theorems": [
    "C16_shuffle_keeps_value",
    "C16_only_own_free_parameters",
    "C16_value_is_sum"
   ],
   "note": "Proved over the reals (float summation order differs)."
  },
  {
   "property": "C17",
   "status": "proved",
   "theorems": [
    "C17_value",
    "C17_count",
    "C17_copy"
   ],
   "note": "Proved over the reals, for one input and one output dimension."
  },
  {
   "property": "C18",
   "status": "partial",
   "theorems": [
    "C18_gradient",
    "C18_derivative",
    "C18_copy",
    "C18_pipe_into_compound_refuted",
    "C18_fixed_behind_pipe_refuted"
   ],
   "note": "Proved for all expressions except two refuted shapes: a pipe into a compound model (partial and derivative raise an exception until the model is copied) and a model with fixed parameters behind a pipe with more models following."
  },
  {
   "property": "C19",
   "status": "proved",
   "theorems": [
    "C19_expand",
    "C19_count",
    "C19_select_expand",
    "C19_gradient",
    "C19_out_of_range_refuted",
    "C19_short_list_refuted"
   ],
   "note": "Proved for floats and for models as fixed values. Findings: an index out of range is accepted but makes the model unusable; a single value is silently used for all free parameters."
  },
  {
   "property": "C20",
   "status": "partial",
   "theorems": [
    "C20_get_prior",
    "C20_get_name",
    "C20_set_prior",
    "C20_next_prior",
    "C20_set_prior_spills_refuted",
    "C20_next_prior_brackets_refuted",
    "C20_has_priors_refuted",
    "C20_set_limits_one_side_refuted",
    "C20_set_limits"
   ],
   "note": "Proved for nested brackets. Refuted: setPrior may change the prior of later parameters of the same model; whole-list conversion raises an exception with brackets; hasPriors only looks at the head; one-sided setLimits raises an exception."
  },
  {
   "property": "C21",
   "status": "proved",
   "theorems": [
    "C21_unlimited",
    "C21_limited",
    "C21_circular",
    "C21_exponential"
   ],
   "note": "Proved over the reals for all six priors, without limits, with limits after any history of setLimits, and circular."
  },
  {
   "property": "C22",
   "status": "partial",
   "theorems": [
    "C22_in_limits",
    "C22_to_unit",
    "C22_far_tail_refuted"
   ],
   "note": "Proved for 0 < u < 1 and for 0 <= u <= 1 with two limits. Refuted at u = 0 for a one-sided limit in the far tail (the lowest value is put at center - 40 scale)."
  },
  {
   "property": "C23",
   "status": "partial",
   "theorems": [
    "C23_density",
    "C23_density_unlimited",
    "C23_integral",
    "C23_partial_log",
    "C23_limits_later_refuted",
    "C23_circular_true_refuted",
    "C23_unbound_jeffreys_refuted"
   ],
   "note": "Proved for priors as constructed, including normalisation. Refuted: limits set later leave the density unnormalised; circular=True without limits; Jeffreys prior without limits returns 0."
  },
  {
   "property": "C24",
   "status": "partial",
   "theorems": [
    "C24_history",
    "C24_unset_refuted",
    "C24_scale_refuted",
    "C24_circular_refuted",
    "C24_failure_refuted",
    "C24_one_side_refuted"
   ],
   "note": "Proved for all histories of setLimits whose last call succeeds. Refuted for unsetLimits, a scale set after the limits, setLimits of a circular prior, a failing setLimits, and the removal of one limit."
  },
  {
   "property": "C25",
   "status": "partial",
   "theorems": [
    "C25_gauss",
    "C25_laplace",
    "C25_cauchy",
    "C25_uniform",
    "C25_exponential",
    "C25_poisson",
    "C25_bernoulli",
    "C25_mixed",
    "C25_unused_scale_refuted"
   ],
   "note": "Proved for Gauss, Laplace, Cauchy, Uniform, Exponential, Poisson, Bernoulli (one output) and mixtures of two one-scale distributions, wherever the likelihood is differentiable. Refuted for the scale of Laplace, Cauchy and Uniform when the problem has an accuracy: the scale is not used, but its partial is not 0. Gauss2d is in C70, Bernoulli with classes in C83."
  },
  {
   "property": "C26",
   "status": "partial",
   "theorems": [
    "C26_gauss",
    "C26_laplace",
    "C26_cauchy",
    "C26_uniform",
    "C26_exponential",
    "C26_poisson",
    "C26_laplace_scale_refuted",
    "C26_uniform_cyclic_refuted",
    "C26_integer_accuracy_refuted",
    "C26_bernoulli_refuted",
    "C26_exponential_fixed_power_refuted"
   ],
   "note": "Agreement proved for Gauss, Laplace (model parameters), Cauchy, Uniform (not cyclic), Exponential and Poisson. Refuted: Laplace scale component, Uniform with a cyclic model, an integer accuracy, Bernoulli, Exponential with the power kept fixed."
  },
  {
   "property": "C27",
   "status": "partial",
   "theorems": [
    "C27_optimum",
    "C27_unique",
    "C27_null_refuted",
    "C27_normalize_refuted"
   ],
   "note": "Proved for linear (affine) models, with weights, accuracies, kept parameters and normalize rows, for any solver that meets the contract of numpy.linalg.solve; refuted for weights on a model without parameters and for kept parameters that enter a normalize row."
  },
  {
   "property": "C28",
   "status": "partial",
   "theorems": [
    "C28_squares",
    "C28_same",
    "C28_history",
    "C28_weights_refuted",
    "C28_stale_refuted",
    "C28_keep_refuted"
   ],
   "note": "Proved: the optimum for squared weights with a new decomposition, the optimum of Fitter for weights 0 and 1, and any history of fits without weights. Refuted: other weights, a fit without weights after one with, a change of keep. qr and inv are assumed to meet their contract."
  },
  {
   "property": "C29",
   "status": "partial",
   "theorems": [
    "C29_fit",
    "C29_limits",
    "C29_worse_refuted",
    "C29_failed_refuted",
    "C29_chisq_extra"
   ],
   "note": "Proved: accepted chi-squareds never increase, the result belongs to the parameters returned and is at most one above the start. Refuted: the first step may be worse than the start; a failed fit with a kept parameter leaves rejected parameters. Limits on the parameters hold."
  },
  {
   "property": "C30",
   "status": "partial",
   "theorems": [
    "C30_fit_keep",
    "C30_init_keep",
    "C30_fit_init",
    "C30_count",
    "C30_count_refuted",
    "C30_override_refuted",
    "C30_later_refuted",
    "C30_stdev",
    "C30_stdev_refuted"
   ],
   "note": "Proved: kept values are returned exactly (fit and constructor), the count is right for the constructor. Refuted: count and standard deviations for keep in the call, constructor values after other changes."
  },
  {
   "property": "C31",
   "status": "partial",
   "theorems": [
    "C31_lowest",
    "C31_zero",
    "C31_limits",
    "C31_tie_refuted",
    "C31_limits_refuted"
   ],
   "note": "Proved: the recorded lowest value is the lowest ever seen; the returned point has it unless the simplex shrank or expanded, and at temperature 0 without ties always; points stay within the limits as long as the simplex is not expanded. Refuted: with equal values the returned point may be worse than the best one; an expansion may leave the limits and return a point outside. Non-finite function values are not modelled."
  },
  {
   "property": "C32",
   "status": "partial",
   "theorems": [
    "C32_polynomial",
    "C32_chebyshev",
    "C32_chebyshev_polynomials",
    "C32_harmonic",
    "C32_sine_amplitudes",
    "C32_power",
    "C32_sine",
    "C32_sine_phase",
    "C32_sine_drift",
    "C32_gauss",
    "C32_lorentz",
    "C32_exp",
    "C32_powerlaw",
    "C32_arctan",
    "C32_logistic",
    "C32_etalon",
    "C32_etalon_drift_partials",
    "C32_etalon_drift_slope_refuted",
    "C32_pade",
    "C32_pseudovoigt",
    "C32_selection",
    "C32_pseudovoigt_fixed_refuted",
    "C32_kernelmodel"
   ],
   "note": "Proved over the reals for all listed models incl. KernelModel, in the domain where they are differentiable. Refuted: EtalonDriftModel.derivative (extra factor), PseudoVoigtModel with a fixed parameter (partial raises AttributeError). The silent correction of nonpositive parameters is left out."
  },
  {
   "property": "C33",
   "status": "partial",
   "theorems": [
    "C33_integral",
    "C33_tophat_integral",
    "C33_partials",
    "C33_tophat_partials",
    "C33_peaked",
    "C33_tophat_peaked",
    "C33_sinc_top",
    "C33_range",
    "C33_tophat_range",
    "C33_squared",
    "C33_squared_missing_refuted",
    "C33_squared_tophat_refuted",
    "C33_fwhm",
    "C33_tophat_fwhm",
    "C33_tophat_known",
    "C33_sinc_zeros",
    "C33_sinc_positive",
    "C33_sinc_model",
    "C33_sinc_formula_refuted",
    "C33_sinc_formula"
   ],
   "note": "Integral, slope, peak and range proved for all kernels (Sinc through the Dirichlet integral; it has no definite sign); resultsq proved for nine kernels. Refuted: Tricube, Triangle and Sinc have no resultsq, Tophat.resultsq treats the square as the argument; the documented formula of SincModel lacks a factor pi. fwhm proved where it is exact; decimal fwhm values are not modelled."
  },
  {
   "property": "C34",
   "status": "partial",
   "theorems": [
    "C34_partition",
    "C34_one_leaf",
    "C34_result",
    "C34_partials",
    "C34_linear",
    "C34_sort",
    "C34_nan_refuted",
    "C34_parlist_refuted"
   ],
   "note": "Every row ends in exactly one leaf, result is its parameter, partial the indicator, result = partials times parameters. Findings: one NaN in a column sends all rows to one side (C34_nan_refuted); a list of parameters given to partial() is taken for a list of data rows (C34_parlist_refuted)."
  },
  {
   "property": "C35",
   "status": "partial",
   "theorems": [
    "C35_round_trip",
    "C35_injective",
    "C35_lengths",
    "C35_copy",
    "C35_copy_dynamic_refuted",
    "C35_decoded_size_refuted"
   ],
   "note": "Round trip, injectivity and copy proved. Findings: a tree made from a code has npars 1 and ncomp 0 and its partial raises (C35_decoded_size_refuted); the copy of a non-dynamic tree is dynamic (C35_copy_dynamic_refuted)."
  },
  {
   "property": "C36",
   "status": "partial",
   "theorems": [
    "C36_grow",
    "C36_grow_refused",
    "C36_shrink",
    "C36_shrink_refuted",
    "C36_shrink_refused",
    "C36_history"
   ],
   "note": "grow proved; shrink proved when the leaf is a left child, or its branch has two leafs, or is the last; in all other cases another leaf loses its parameter (C36_shrink_refuted). For trees that are not part of a compound model."
  },
  {
   "property": "C37",
   "status": "partial",
   "theorems": [
    "C37_rows",
    "C37_order_C",
    "C37_all_pixels",
    "C37_resize",
    "C37_order_F_rows",
    "C37_order_F_cube",
    "C37_order_F_refuted",
    "C37_argument_refuted"
   ],
   "note": "Order C proved for all shapes; resizeData inverts getydata in both orders. Finding: with order F rows are the C rows reversed, which match the F-flattened data only when all dimensions are equal (C37_order_F_refuted); the argument order of getIndices is ignored."
  },
  {
   "property": "C38",
   "status": "proved",
   "theorems": [
    "C38_call",
    "C38_used",
    "C38_orthonormal",
    "C38_returned",
    "C38_dependent_refuted"
   ],
   "note": "For vectors not in the span of the basis used; a dependent vector gives 0/0 (C38_dependent_refuted)."
  },
  {
   "property": "C39",
   "status": "partial",
   "theorems": [
    "C39_interpolate",
    "C39_mirror",
    "C39_reflect",
    "C39_run",
    "C39_size",
    "C39_many_refuted",
    "C39_unit_gradient_refuted",
    "C39_interpolate_inf_refuted",
    "C39_stuck_refuted"
   ],
   "note": "Proved for up to sixteen parameters, for any likelihood and draws: the call ends, all points tried are in the unit box and accepted likelihoods are not below the threshold; the reflection keeps the speed. More parameters, the gradient in domain units and minus infinite likelihoods are refuted."
  },
  {
   "property": "C40",
   "status": "partial",
   "theorems": [
    "C40_start",
    "C40_run",
    "C40_full_chord",
    "C40_edge_refuted"
   ],
   "note": "Proved for walkers strictly between the edges and draws strictly between 0 and 1; a walker exactly on an edge is refuted. Directions are arbitrary; their orthonormalisation is C38."
  },
  {
   "property": "C41",
   "status": "partial",
   "theorems": [
    "C41_congruent",
    "C41_interval",
    "C41_identity",
    "C41_shortest",
    "C41_large_refuted",
    "C41_columns",
    "C41_one_period",
    "C41_plain"
   ],
   "note": "Residuals up to one and a half period (data and model both within one period included) come within half a period and are the shortest distance; larger ones are only shifted by one period (refuted)."
  },
  {
   "property": "C42",
   "status": "partial",
   "theorems": [
    "C42_quadratic",
    "C42_positive",
    "C42_gradient",
    "C42_no_accuracy",
    "C42_split",
    "C42_partial_matrix",
    "C42_unit",
    "C42_copy",
    "C42_scalar_refuted",
    "C42_argument_refuted",
    "C42_copy_refuted",
    "C42_copy_scalar_refuted"
   ],
   "note": "Proved: distance is the quadratic form of the inverse covariance plus noise, positive, gradient, split/result, matrix of partials, unit/domain maps. Refuted: one number as accuracy gives its fourth power; rows of accuracies overwrite the array of the caller and are squared again by every copy."
  },
  {
   "property": "C43",
   "status": "partial",
   "theorems": [
    "C43_weights",
    "C43_bounds",
    "C43_kernels",
    "C43_sinc_refuted",
    "C43_onesided",
    "C43_domain",
    "C43_other_kernel_refuted",
    "C43_callable_refuted",
    "C43_no_iteration_refuted",
    "C43_not_converged_refuted"
   ],
   "note": "Proved for the kernels between 0 and 1 (all but Sinc) with the fitter arbitrary, state included. Sinc gives negative weights (refuted); so do: other kernel in fit() keeps the old domain, callable kernel without domain, maxIter=0, no convergence error."
  },
  {
   "property": "C44",
   "status": "partial",
   "theorems": [
    "C44_accepts",
    "C44_layout",
    "C44_result",
    "C44_derivative",
    "C44_gradient",
    "C44_both_refuted",
    "C44_copy",
    "C44_copy_refuted"
   ],
   "note": "Full for any inner model built by the operators and any number of copies, except: a parameter in both addCombi and mulCombi has a wrong partial (C44_both_refuted) and the copy of a combination of a compound model differs (C44_copy_refuted). Base models are taken to be right about their own derivatives. Names and priors of the combination are in C108, units in C96."
  },
  {
   "property": "C45",
   "status": "partial",
   "theorems": [
    "C45_copy_limited",
    "C45_copy_unlimited",
    "C45_copy_no_prior",
    "C45_history",
    "C45_noise_limits",
    "C45_set_limits",
    "C45_noise_copy_refuted",
    "C45_hyper_limits_refuted",
    "C45_prior_limits_refuted",
    "C45_fitlist",
    "C45_power_refuted",
    "C45_keep_refuted",
    "C45_keep_marks",
    "C45_keep_none",
    "C45_scaled",
    "C45_fixed_argument_refuted",
    "C45_errdis_copy_refuted",
    "C45_mixed_order"
   ],
   "note": "HyperParameter.copy and setLimits are right for all histories (circular priors and the other prior classes left out); NoiseScale.copy, HyperParameter limits without prior, prior handed in with limits, keepFixed, fixed=, copying an error distribution are refuted."
  },
  {
   "property": "C46",
   "status": "partial",
   "theorems": [
    "C46_static_ids_unique",
    "C46_dynamic_ids_unique_refuted"
   ],
   "note": "Proved for static models; refuted for dynamic models (phantom storage renumbers walkers to 0)."
  },
  {
   "property": "C47",
   "status": "partial",
   "theorems": [
    "C47_information_during_the_run",
    "C47_final_information_refuted"
   ],
   "note": "Proved after every iteration; refuted for the value at the end of the run, where the last limit is used instead of the logL of each remaining walker."
  },
  {
   "property": "C48",
   "status": "proved",
   "theorems": [
    "C48_stops_for_a_reason",
    "C48_iterations_bounded",
    "C48_at_most_maxIterations_refuted"
   ],
   "note": "Proved. Finding: one iteration more than maxIterations can be done (the comparison is strict)."
  },
  {
   "property": "C49",
   "status": "partial",
   "theorems": [
    "C49_circle",
    "C49_ellipse",
    "C49_rotated",
    "C49_profile",
    "C49_tophat_refuted"
   ],
   "note": "Proved for every kernel with an exact partial and a right resultsq. Refuted for Tophat (its resultsq is wrong); a kernel without resultsq cannot be used. In the centre the derivative of circle and ellipse is 0/0."
  },
  {
   "property": "C50",
   "status": "partial",
   "theorems": [
    "C50_grow",
    "C50_shrink",
    "C50_vary",
    "C50_vary_split_refuted",
    "C50_vary_mask_refuted"
   ],
   "note": "grow and shrink always; vary except when a float branch becomes boolean/categorial or a one-bit mask loses its bit (refuted)."
  },
  {
   "property": "C51",
   "status": "partial",
   "theorems": [
    "C51_corners",
    "C51_good_refused_refuted",
    "C51_flat_accepted_refuted",
    "C51_one_parameter_refuted",
    "C51_upper_refuted",
    "C51_constant_refuted",
    "C51_start",
    "C51_cooling"
   ],
   "note": "Proved: the corners of an accepted start. Refuted: good simplexes with a corner of equal coordinates are refused, a simplex in one place is accepted, one parameter is always refused, a start above an upper limit without lower limit is lost, the search on a constant function never ends."
  },
  {
   "property": "C52",
   "status": "partial",
   "theorems": [
    "C52_units",
    "C52_basis",
    "C52_result",
    "C52_polynomial",
    "C52_derivative",
    "C52_two_knots",
    "C52_derivative_refuted",
    "C52_histogram_refuted",
    "C52_lines_refuted",
    "C52_smooth"
   ],
   "note": "Proved: partials, result, smoothness, polynomials, units of the parameters for all orders; the derivative for order 3 and for two knots. Refuted: the derivative for every other order (the factor 3 is written out), for orders 0 and 1 by an example. Fixed parameters are left out."
  },
  {
   "property": "C53",
   "status": "partial",
   "theorems": [
    "C53_step",
    "C53_gibbs",
    "C53_random",
    "C53_random_range",
    "C53_random_range_refuted",
    "C53_negative",
    "C53_step_size",
    "C53_gibbs_size"
   ],
   "note": "Proved for all three engines, for every finished run (that the random search for a point in the box ends is not provable: it depends on the random numbers). Refuted: with a parameter that is not fitted RandomEngine draws later parameters from the range of another one."
  },
  {
   "property": "C54",
   "status": "proved",
   "theorems": [
    "C54_grow",
    "C54_grow_otherwise",
    "C54_shrink",
    "C54_vary",
    "C54_varyAlt",
    "C54_run",
    "C54_copy",
    "C54_copy_refuted",
    "C54_endless_refuted",
    "C54_false_refuted",
    "C54_last_refuted",
    "C54_priors_refuted",
    "C54_chain_refuted"
   ],
   "note": "Proved for calls that return True; what happens otherwise is in C54_grow_otherwise and C54_vary. Refuted: grow does not return when no gap is more than twice minDistance; grow that returns False because the basis can not be made leaves a knot and a count too many; the copy of a periodic model is not periodic; vary of the last knot raises; shrink without priors, or as the last of a chain, raises after it has taken away a knot."
  },
  {
   "property": "C55",
   "status": "partial",
   "theorems": [
    "C55_result",
    "C55_partials",
    "C55_derivative",
    "C55_name",
    "C55_unit_refuted"
   ],
   "note": "Proved: result, partials, derivative and names for all degrees. Refuted: the units of x and y are interchanged in baseParameterUnit."
  },
  {
   "property": "C56",
   "status": "partial",
   "theorems": [
    "C56_kepler",
    "C56_rest",
    "C56_converged",
    "C56_circular",
    "C56_ellipse",
    "C56_areas",
    "C56_partials",
    "C56_derivative",
    "C56_velocity",
    "C56_axis_refuted",
    "C56_msini_refuted",
    "C56_msini",
    "C56_unit_refuted",
    "C56_eccentricity_unit_refuted"
   ],
   "note": "Proved: existence and uniqueness of the anomaly, accuracy of a converged iteration, ellipse, second law, the velocity as derivative of the depth, all partials and the derivative, in real numbers with the exact anomaly. That the iteration converges is proved up to an eccentricity of 0.4 (C105), not above. Within 1e-10 of cos E = -1 the code uses a fixed number; there nothing is claimed. Refuted: semimajoraxis uses the wrong parameters; the period has the unit of the velocity."
  },
  {
   "property": "C57",
   "status": "partial",
   "theorems": [
    "C57_projection",
    "C57_spherical",
    "C57_partials",
    "C57_derivative",
    "C57_rectangular",
    "C57_scaling",
    "C57_unit_refuted",
    "C57_cosine"
   ],
   "note": "Proved: projection, toRect/toSpher, all partials and the derivative in both kinds of coordinates (rectangular also where the angle jumps), in real numbers with the exact anomaly. Within 1e-10 of cos E = -1 nothing is claimed. Refuted: the unit of the period is 1/xUnit."
  },
  {
   "property": "C58",
   "status": "proved",
   "theorems": [
    "C58_probabilities",
    "C58_single",
    "C58_plain",
    "C58_order",
    "C58_shift",
    "C58_partials",
    "C58_derivative",
    "C58_partials_sum",
    "C58_columns",
    "C58_parlist_refuted",
    "C58_unit",
    "C58_unit_refuted",
    "C58_transfer",
    "C58_size"
   ],
   "note": "One data point, real arithmetic; ndout and ndim arbitrary. Findings: the list of wanted parameters is ignored by basePartial (C58_parlist_refuted), the first offset gets the unit of a weight (C58_unit_refuted)."
  },
  {
   "property": "C59",
   "status": "proved",
   "theorems": [
    "C59_likelihood",
    "C59_likelihood_refuted",
    "C59_ranges",
    "C59_evidence",
    "C59_nofree",
    "C59_variance",
    "C59_log10",
    "C59_errors",
    "C59_compound_refuted",
    "C59_noise_refuted"
   ],
   "note": "Real arithmetic; numpy.linalg.det enters by the contract that it is the determinant of L L^T. Findings: weights with an array of accuracies (C59_likelihood_refuted), priors of compound models (C59_compound_refuted), noiseLimits (C59_noise_refuted)."
  },
  {
   "property": "C60",
   "status": "partial",
   "theorems": [
    "C60_fitlist",
    "C60_keep",
    "C60_keep_values",
    "C60_keep_refuted",
    "C60_static",
    "C60_dynamic",
    "C60_fixed_refuted",
    "C60_retry_refuted"
   ],
   "note": "Proved for models that are not dynamic and for dynamic (repeating) models with all parameters fitted; refuted: keep together with a fixed hyperparameter raises IndexError; in a dynamic model kept and fixed values are set to 0; after a failed try the index list of a dynamic model behind other parameters with keep goes wrong. The likelihood and the prior transforms are parameters of the model."
  },
  {
   "property": "C61",
   "status": "proved",
   "theorems": [
    "C61_birth",
    "C61_death",
    "C61_death_components",
    "C61_history",
    "C61_structure_append",
    "C61_structure_inplace"
   ],
   "note": "The likelihood, the prior transforms, the permutation and the variation of the structure are parameters. With kept parameters in the dynamic model the index list goes wrong: see C14."
  },
  {
   "property": "C62",
   "status": "proved",
   "theorems": [
    "C62_partition",
    "C62_recursion",
    "C62_outside",
    "C62_result",
    "C62_derivative",
    "C62_higher",
    "C62_continuous",
    "C62_derivative_first",
    "C62_d",
    "C62_derivative_last_refuted",
    "C62_single_refuted",
    "C62_copy_refuted"
   ],
   "note": "C62_* in T_BSpline. memoize and the layout of knots from a range are left out. Findings: derivative 0 at the last knot, shape with one parameter, eps not copied."
  },
  {
   "property": "C63",
   "status": "proved",
   "theorems": [
    "C63_poly",
    "C63_poly_unit",
    "C63_poly_name_refuted",
    "C63_spline",
    "C63_spline_derivative_refuted",
    "C63_spline_unit",
    "C63_drift",
    "C63_drift_derivative_refuted",
    "C63_drift_unit_refuted"
   ],
   "note": "Real arithmetic; the splines are those of C52. Attributes, copies and parlist are left out."
  },
  {
   "property": "C64",
   "status": "proved",
   "theorems": [
    "C64_product",
    "C64_product_partials",
    "C64_product_name",
    "C64_product_unit",
    "C64_product_unit_refuted",
    "C64_product_title_refuted",
    "C64_surface",
    "C64_surface_columns",
    "C64_surface_result",
    "C64_surface_name_refuted",
    "C64_surface_name",
    "C64_surface_unit_refuted",
    "C64_surface_cap_refuted",
    "C64_pixels",
    "C64_pixels_tophat",
    "C64_pixels_center_refuted",
    "C64_pixels_line",
    "C64_constant",
    "C64_constant_copy_refuted",
    "C64_constant_fixed_refuted"
   ],
   "note": "Real arithmetic; splines are those of C52, top-hats those of C33. The models in a product are given by result and partial with a contract. Type checks of attributes are left out."
  },
  {
   "property": "C65",
   "status": "proved",
   "theorems": [
    "C65_value",
    "C65_gradient",
    "C65_hessian",
    "C65_hessian_refuted",
    "C65_hessian_keep_refuted",
    "C65_curve",
    "C65_curve_jacobian",
    "C65_curve_fit",
    "C65_curve_keep_refuted",
    "C65_scipy",
    "C65_amoeba",
    "C65_scipy_par0_refuted",
    "C65_scipy_method_refuted",
    "C65_scipy_limits_refuted",
    "C65_scipy_bounds_refuted",
    "C65_cg_gradient_refuted",
    "C65_logl_gradient",
    "C65_gauss_hessian_refuted",
    "C65_gauss_hessian_scale_refuted",
    "C65_curve_bounds",
    "C65_curve_bounds_refuted",
    "C65_curve_limits"
   ],
   "note": "scipy minimize and curve_fit are parameters with a contract; linear models for the Hessian statements"
  },
  {
   "property": "C66",
   "status": "proved",
   "theorems": [
    "C66_number",
    "C66_array",
    "C66_increasing",
    "C66_float_refuted",
    "C66_float_large_refuted",
    "C66_single_refuted",
    "C66_negative_refuted",
    "C66_towards_zero"
   ],
   "note": "The hundred constants are checked against certified bounds on logarithms computed in the kernel. Refuted as documented: floats are not truncated (TypeError below 100), lists and arrays of one raise TypeError, negative numbers are taken from the end of the table."
  },
  {
   "property": "C67",
   "status": "proved",
   "theorems": [
    "C67_init",
    "C67_fitter",
    "C67_inside",
    "C67_none",
    "C67_limit",
    "C67_kept",
    "C67_keep",
    "C67_optimal",
    "C67_chain_refuted",
    "C67_missing_refuted",
    "C67_again_refuted",
    "C67_two_refuted",
    "C67_keep_refuted",
    "C67_override_refuted",
    "C67_shape_refuted",
    "C67_prior"
   ],
   "note": "Any fitter (contract: what C30 proves of Fitter). Refuted: limits are not looked at again after the second fit, two transgressors are both fixed although the constrained optimum needs one, priors of a second model are ignored or give an IndexError, a kept value beyond the limit is moved, a value kept in the call is overruled, the length of the returned list varies."
  },
  {
   "property": "C68",
   "status": "proved",
   "theorems": [
    "C68_factor",
    "C68_variant",
    "C68_error",
    "C68_linear",
    "C68_covariance",
    "C68_zero",
    "C68_fitter",
    "C68_average",
    "C68_sample_error",
    "C68_first_refuted",
    "C68_stale_refuted"
   ],
   "note": "eigh is an oracle with its documented contract. Refuted for SampleList.monteCarloError: AttributeError before the first average, and errors of other points when called for another input of the same length."
  },
  {
   "property": "C69",
   "status": "partial",
   "theorems": [
    "C69_gauss",
    "C69_laplace",
    "C69_cauchy",
    "C69_cauchy_sigma_refuted",
    "C69_uniform",
    "C69_exponential",
    "C69_poisson",
    "C69_bernoulli",
    "C69_bernoulli_refuted",
    "C69_mixed",
    "C69_cyclic_refuted"
   ],
   "note": "Holds for all distributions in plain problems; refuted: toSigma of Cauchy (no standard deviation exists), Bernoulli (outcomes swapped with respect to the documentation), cyclic models (density not wrapped)."
  },
  {
   "property": "C70",
   "status": "partial",
   "theorems": [
    "C70_density",
    "C70_normalisation_refuted",
    "C70_scale",
    "C70_parameters",
    "C70_alternative",
    "C70_alternative_refuted"
   ],
   "note": "Formula and derivatives proved; refuted: the likelihood of a pair integrates to sqrt( 2 pi ) instead of 1 (one LOG2PI instead of two), and the alternative raises a NameError with weights."
  },
  {
   "property": "C71",
   "status": "partial",
   "theorems": [
    "C71_gauss",
    "C71_laplace",
    "C71_exponential",
    "C71_exponential_refuted",
    "C71_uniform",
    "C71_uniform_refuted",
    "C71_cauchy_refuted",
    "C71_cauchy_range_refuted",
    "C71_gauss_accuracy_refuted",
    "C71_default",
    "C71_default_refuted",
    "C71_autoscale",
    "C71_autoscale_laplace_refuted",
    "C71_autoscale_uniform_refuted"
   ],
   "note": "Holds for Gauss and Laplace without accuracies (and for Exponential with power 1); for Uniform the estimate is the greatest lower bound of the scales with a likelihood. Refuted: Exponential with another power (factor power missing), Cauchy (other equation, ValueError outside 0.001-100), Uniform at the estimate itself (likelihood 0), Gauss with accuracies, Exponential without allpars (TypeError), autoscale for Laplace and Uniform (standard deviation instead of scale)."
  },
  {
   "property": "C72",
   "status": "partial",
   "theorems": [
    "C72_pipe",
    "C72_derivative",
    "C72_difference_refuted",
    "C72_product_refuted",
    "C72_product_wrong_refuted",
    "C72_partials",
    "C72_partials_refuted",
    "C72_pipe_next_refuted",
    "C72_pipe_next",
    "C72_numeric",
    "C72_numeric_refuted"
   ],
   "note": "The chain rule holds for all dimensions. Refuted: derivative of a product or quotient with more than one input (ValueError, or silently wrong when there are as many data as inputs), derivative of a difference with more inputs and more outputs (TypeError), partials of a product or quotient with more outputs (AttributeError), a model after a pipe when the piped model cannot be evaluated at xdata, numerical partials and derivatives with more outputs."
  },
  {
   "property": "C73",
   "status": "partial",
   "theorems": [
    "C73_weights",
    "C73_weights_refuted",
    "C73_residuals",
    "C73_partials",
    "C73_scale",
    "C73_scale_refuted"
   ],
   "note": "Order of residuals, partials and weights proved. Refuted: without weights the estimate of the scale is sqrt( ndout ) too large (ndata counts data, not residuals); weights in a list and an accuracy of one python float raise AttributeError."
  },
  {
   "property": "C74",
   "status": "partial",
   "theorems": [
    "C74_sumweight",
    "C74_ndata_refuted",
    "C74_poke_refuted",
    "C74_copy",
    "C74_accuracy",
    "C74_accuracy_refuted",
    "C74_cyclic",
    "C74_cyclic_refuted"
   ],
   "note": "Proved for all sequences without another number of data, in-place changes of weights, assignment to accuracy, or another model; each of these four is refuted."
  },
  {
   "property": "C75",
   "status": "partial",
   "theorems": [
    "C75_close",
    "C75_alone",
    "C75_operator",
    "C75_inplace",
    "C75_subtract_refuted",
    "C75_multiply_refuted",
    "C75_first_refuted",
    "C75_user",
    "C75_user_fixed_refuted",
    "C75_astropy",
    "C75_astropy_columns",
    "C75_astropy_derivative_refuted"
   ],
   "note": "Proved for simple models, and for compounds made by operators (copies). Refuted: in place subtraction has the wrong sign, in place multiplication, division and appending to a numeric model fail; with fixed parameters UserModel takes rows in stead of columns; AstropyModel has no derivative."
  },
  {
   "property": "C76",
   "status": "partial",
   "theorems": [
    "C76_evidence",
    "C76_linear_refuted",
    "C76_singular",
    "C76_runtime_refuted",
    "C76_weights_refuted",
    "C76_fitter_refuted",
    "C76_fitter_size_refuted",
    "C76_nested",
    "C76_nested_refuted",
    "C76_copy",
    "C76_copy_refuted"
   ],
   "note": "Proved without weights for arbiters that are None or a name. Refuted: weights are not passed to fitters; a fitter as arbiter uses its own model; nested returns a 10log; RuntimeError for too many parameters is not caught; linear test looks at the first model only; a copy loses the keywords."
  },
  {
   "property": "C77",
   "status": "partial",
   "theorems": [
    "C77_result",
    "C77_partials",
    "C77_fixed_refuted",
    "C77_last_refuted",
    "C77_free",
    "C77_prior",
    "C77_compound_refuted"
   ],
   "note": "results and partials proved for all complexities; not with fixed parameters (C77_fixed_refuted, C77_last_refuted: the list of free parameters is ignored), nor for priors of models that follow in a compound (C77_compound_refuted)"
  },
  {
   "property": "C78",
   "status": "proved",
   "theorems": [
    "C78_partials",
    "C78_slope",
    "C78_shape",
    "C78_convolution",
    "C78_selection"
   ],
   "note": "scipy.special.wofz is taken to be the Faddeeva function, which is constructed as an integral"
  },
  {
   "property": "C79",
   "status": "proved",
   "theorems": [
    "C79_construct",
    "C79_history",
    "C79_copy",
    "C79_rates_uniform",
    "C79_rates_exponential",
    "C79_law_uniform",
    "C79_law_exponential",
    "C79_flat_refuted",
    "C79_start",
    "C79_start_refuted",
    "C79_copy_refuted",
    "C79_static_refuted",
    "C79_dynamic"
   ],
   "note": "The random walk over sizes is taken with sufficient likelihood at every proposal; the four refuted theorems are findings."
  },
  {
   "property": "C80",
   "status": "proved",
   "theorems": [
    "C80_partials",
    "C80_selection",
    "C80_selection_range",
    "C80_empty_selection_refuted",
    "C80_derivative",
    "C80_origin",
    "C80_names",
    "C80_names_refuted",
    "C80_result",
    "C80_compound_refuted"
   ],
   "note": "The model inside is any function with exact partials; the three refuted theorems are findings."
  },
  {
   "property": "C81",
   "status": "partial",
   "theorems": [
    "C81_plain",
    "C81_list",
    "C81_circular",
    "C81_circular_unique",
    "C81_circular_stdev",
    "C81_circular_periods",
    "C81_circular_turn",
    "C81_circular_single",
    "C81_asked_once",
    "C81_asked_circular",
    "C81_stdevHypar_refuted",
    "C81_stdevScale_refuted",
    "C81_stale_refuted"
   ],
   "note": "The averages themselves are proved; refuted: stdevHypar recurses for ever, stdevScale fails when the hyper parameters were not asked for before, and standard deviations stay as they were when a sample is added."
  },
  {
   "property": "C82",
   "status": "partial",
   "theorems": [
    "C82_exchange",
    "C82_untie",
    "C82_upright_second",
    "C82_level",
    "C82_what_is_tested",
    "C82_parallel",
    "C82_search",
    "C82_documented_refuted",
    "C82_upright_refuted",
    "C82_downhill_refuted",
    "C82_nearest",
    "C82_near_proposal",
    "C82_near_idle_refuted",
    "C82_table_refuted"
   ],
   "note": "Proved: what untying does to the length, the search for the first leg that passes the test, upright second legs and legs that start equally high, and the nearest neighbour with distances from coordinates over all histories. Refuted: the test for sloping legs has a sign wrong (the example in the documentation is not found, the engine steps downhill), upright first legs, nearest neighbours with spherical or tabulated distances."
  },
  {
   "property": "C83",
   "status": "partial",
   "theorems": [
    "C83_lists",
    "C83_value",
    "C83_elements",
    "C83_second_without_refuted",
    "C83_gradient",
    "C83_power_first",
    "C83_power_second",
    "C83_poisson_first",
    "C83_beyond",
    "C83_power_second_refuted",
    "C83_bernoulli_element",
    "C83_bernoulli_no_class",
    "C83_bernoulli_two",
    "C83_bernoulli_gradient",
    "C83_bernoulli_partials"
   ],
   "note": "Proved: lists of the parts for any numbers of hyper-parameters as long as the second has one; value for every fraction; gradient for the parameters, the fraction, the last hyper-parameter of the second part, and the last of the first part when the second has exactly one (instances: exponential power first or second, Poisson first); any lower index makes partialLogL use numerical derivatives; Bernoulli with classes. Refuted: a second part without hyper-parameters raises always; with the exponential power distribution as second part the partial to its scale is that to the scale of the first part."
  },
  {
   "property": "C84",
   "status": "proved",
   "theorems": [
    "C84_smooth",
    "C84_linear",
    "C84_support",
    "C84_normalized",
    "C84_points",
    "C84_segment",
    "C84_periodic_few_refuted",
    "C84_easy_refuted"
   ],
   "note": "Real numbers; numpy.linalg.solve returns a solution of a regular system, else raises."
  },
  {
   "property": "C85",
   "status": "proved",
   "theorems": [
    "C85_engines",
    "C85_engines_unknown",
    "C85_connected",
    "C85_initial",
    "C85_new_distribution_refuted",
    "C85_distribution",
    "C85_distribution_known",
    "C85_limits_refuted",
    "C85_sampler",
    "C85_solver",
    "C85_solver_distribution_refuted",
    "C85_solver_dynamic_refuted",
    "C85_problem",
    "C85_evidence_refuted",
    "C85_problem_data_refuted",
    "C85_problem_kept",
    "C85_boost",
    "C85_boost_refuted",
    "C85_copymode",
    "C85_case",
    "C85_problem_name",
    "C85_preferred"
   ],
   "note": "Constructors of problems, distributions and engines succeed when they can be called; objects are numbers."
  },
  {
   "property": "C86",
   "status": "proved",
   "theorems": [
    "C86_better",
    "C86_best_only",
    "C86_one",
    "C86_fails",
    "C86_no_hyper_refuted",
    "C86_more_hyper_refuted",
    "C86_keep_refuted",
    "C86_empty_refuted"
   ],
   "note": "The fitter and the likelihood are arbitrary functions."
  },
  {
   "property": "C87",
   "status": "proved",
   "theorems": [
    "C87_aveknt",
    "C87_aveknt_between",
    "C87_aveknt_rises",
    "C87_aveknt_zero",
    "C87_integer_refuted",
    "C87_integer",
    "C87_accepts",
    "C87_aptknt",
    "C87_knots_rise",
    "C87_suitable",
    "C87_order_zero_refuted",
    "C87_repeated_refuted",
    "C87_repeated",
    "C87_mlt",
    "C87_spcol",
    "C87_derivatives",
    "C87_last_row_refuted"
   ],
   "note": "aptknt of integers is not modelled apart (its averages are truncated as those of aveknt); the memoize decorators are left out"
  },
  {
   "property": "C88",
   "status": "proved",
   "theorems": [
    "C88_select",
    "C88_ends",
    "C88_passes",
    "C88_above",
    "C88_others",
    "C88_fine",
    "C88_appended",
    "C88_checked",
    "C88_unset_refuted",
    "C88_slow_refuted",
    "C88_reports",
    "C88_calls_refuted",
    "C88_threads",
    "C88_errors_refuted",
    "C88_update",
    "C88_update_ends",
    "C88_worst",
    "C88_stuck_refuted",
    "C88_few_refuted",
    "C88_run",
    "C88_step"
   ],
   "note": "the threads are modelled one after the other and only for reports and errors; printing and checks for verbose >= 4 are left out; a negative step is left out"
  },
  {
   "property": "C89",
   "status": "proved",
   "theorems": [
    "C89_next",
    "C89_partials",
    "C89_quadratic",
    "C89_partial_accuracy",
    "C89_parlist_refuted",
    "C89_derivative",
    "C89_derivatives",
    "C89_test",
    "C89_test_none",
    "C89_test_number_refuted",
    "C89_logL",
    "C89_index",
    "C89_logL_accuracy",
    "C89_prior",
    "C89_limits",
    "C89_limits_some",
    "C89_limits_order_refuted",
    "C89_limits_shared_refuted",
    "C89_limits_list_refuted",
    "C89_limits_hyper_refuted"
   ],
   "note": "_refuted theorems tell where the code deviates."
  },
  {
   "property": "C90",
   "status": "proved",
   "theorems": [
    "C90_index",
    "C90_map",
    "C90_map_returns",
    "C90_map_short",
    "C90_roundtrip",
    "C90_box",
    "C90_nobox",
    "C90_unset",
    "C90_copies",
    "C90_copies_fine",
    "C90_copies_ends",
    "C90_endless_refuted",
    "C90_walk",
    "C90_copies_dynamic",
    "C90_dynamic_fine",
    "C90_check",
    "C90_nuisance_refuted",
    "C90_nuisance",
    "C90_nomodel_refuted",
    "C90_sign_refuted"
   ],
   "note": "_refuted theorems tell where the code deviates."
  },
  {
   "property": "C91",
   "status": "partial",
   "theorems": [
    "C91_lists",
    "C91_stored",
    "C91_values",
    "C91_single",
    "C91_types",
    "C91_names",
    "C91_setAttribute",
    "C91_bools_refuted",
    "C91_float32_refuted",
    "C91_nice",
    "C91_nice_zero",
    "C91_format",
    "C91_format_all",
    "C91_format_row",
    "C91_format_lines",
    "C91_linelength_refuted",
    "C91_settings",
    "C91_init"
   ],
   "note": "The formatter counts neither the opening brackets nor the spaces before a line, so a line can be longer than linelength (C91_linelength_refuted). A bool is accepted as a float on its own but not in a list (C91_bools_refuted), a float32 is not accepted as a float on its own (C91_float32_refuted). The texts of the numbers themselves (format % item) are not modelled."
  },
  {
   "property": "C92",
   "status": "partial",
   "theorems": [
    "C92_sample",
    "C92_parts",
    "C92_hypars",
    "C92_nuisance_refuted",
    "C92_nomodel_refuted",
    "C92_stop",
    "C92_converged",
    "C92_continue",
    "C92_minimum_refuted",
    "C92_maximum_refuted",
    "C92_evidence",
    "C92_others",
    "C92_attribute_refuted",
    "C92_plots",
    "C92_heading",
    "C92_heading_refuted",
    "C92_tail",
    "C92_marks",
    "C92_lines",
    "C92_rate",
    "C92_rate_first",
    "C92_rate_refuted",
    "C92_reports",
    "C92_journey",
    "C92_journey_none",
    "C92_stepOut",
    "C92_stepOut_ends"
   ],
   "note": "False of the code: the hypars of a walker of a problem with nuisance parameters start with the nuisance parameters, and a walker of a problem without model has no parameters (C92_nuisance_refuted, C92_nomodel_refuted); a maximum below the minimum of iterations is not obeyed, and one iteration more than the maximum is done (C92_minimum_refuted, C92_maximum_refuted); unknown attributes of a sampler are None (C92_attribute_refuted); with two hyperparameters of which one is fitted the heading names the wrong one (C92_heading_refuted); successRate divides by zero when nothing was tried (C92_rate_refuted). The rest is proved."
  },
  {
   "property": "C93",
   "status": "partial",
   "theorems": [
    "C93_ends",
    "C93_first",
    "C93_shift",
    "C93_small",
    "C93_polynomial",
    "C93_polynomial_refuted",
    "C93_numbers",
    "C93_two",
    "C93_brackets",
    "C93_fixed_numbers",
    "C93_fixed",
    "C93_square_refuted",
    "C93_bracket_refuted",
    "C93_short",
    "C93_letters",
    "C93_short_refuted",
    "C93_two_sign",
    "C93_short_sign",
    "C93_letter"
   ],
   "note": "Numbers in the text proved right exactly when no parameter number is mentioned before one that begins with it (polynomials: degree below 10), refuted otherwise; the character after a fixed parameter is lost unless it is a blank (Lorentz, PowerLaw refuted); shortName raises on models with brackets (refuted). Texts of values and indentation of nested brackets beyond the two-level case are not characterised."
  },
  {
   "property": "C94",
   "status": "partial",
   "theorems": [
    "C94_points_prefix",
    "C94_points_total",
    "C94_points_share",
    "C94_limits",
    "C94_margins",
    "C94_xlim",
    "C94_points_inside",
    "C94_ylim_refuted",
    "C94_marker",
    "C94_grid",
    "C94_fit_made",
    "C94_fit_shown",
    "C94_residual_values",
    "C94_band_values",
    "C94_fit_given",
    "C94_fit_residual_refuted",
    "C94_movie_frames",
    "C94_movie_frame",
    "C94_movie_backend",
    "C94_movie_backend_refuted",
    "C94_movie_data",
    "C94_movie_data_refuted",
    "C94_movie_first",
    "C94_movie_second_refuted"
   ],
   "note": "Refuted: plotSampleList with ylim raises UnboundLocalError; plotFit with both a fit and a model shows residuals of the fit next to the curve of the model; SampleMovie subtracts 9 from the data of the problem in place on every call, so that a second movie is off by 9, and does not restore the backend when it stops early. Everything else is proved."
  },
  {
   "property": "C95",
   "status": "partial",
   "theorems": [
    "C95_dynamic",
    "C95_sound",
    "C95_complete",
    "C95_brackets_refuted",
    "C95_static_refuted",
    "C95_modifiable",
    "C95_modifiable_refuted",
    "C95_engine",
    "C95_structure",
    "C95_engine_forced",
    "C95_engines",
    "C95_evidence",
    "C95_append",
    "C95_one",
    "C95_one_refuted"
   ],
   "note": "Refuted: a dynamic model inside of brackets, or behind a RepeatingModel (splines, tree) that is not dynamic, is not seen, so that it never grows and a second dynamic model is accepted; a modifiable model counts only when it is the first of the chain. The rest is proved, in general and for chains of single models."
  },
  {
   "property": "C96",
   "status": "partial",
   "theorems": [
    "C96_gauss",
    "C96_lorentz",
    "C96_exp",
    "C96_arctan",
    "C96_logistic",
    "C96_kernel",
    "C96_sine",
    "C96_sinedrift",
    "C96_etalon",
    "C96_etalondrift",
    "C96_polynomial",
    "C96_harmonic",
    "C96_sineamp",
    "C96_pade",
    "C96_voigt",
    "C96_pseudovoigt",
    "C96_pseudovoigt_refuted",
    "C96_power",
    "C96_power_refuted",
    "C96_powerlaw_refuted",
    "C96_powerlaw",
    "C96_sine_phase",
    "C96_chebyshev_refuted",
    "C96_fixed",
    "C96_fixed_refuted",
    "C96_pade_refuted",
    "C96_chain",
    "C96_chain_range",
    "C96_sum",
    "C96_chain_refuted",
    "C96_head",
    "C96_combi_refuted",
    "C96_combi",
    "C96_repeat",
    "C96_integral",
    "C96_own_units",
    "C96_integral_units"
   ],
   "note": "Refuted for PowerModel, PowerLawModel, PseudoVoigtModel, ChebyshevPolynomialModel, fixed parameters (PadeModel), later models of a chain, CombiModel. Not modelled: splines, two-dimensional kernels and other models with more inputs than EtalonDriftModel; real (not natural) exponents of PowerModel on the positive side. The radian counts as a pure number."
  },
  {
   "property": "C97",
   "status": "partial",
   "theorems": [
    "C97_parse_name",
    "C97_parse_number",
    "C97_parse_none",
    "C97_name_back",
    "C97_set",
    "C97_new",
    "C97_reshape_refuted",
    "C97_copy",
    "C97_copy_result",
    "C97_result",
    "C97_start",
    "C97_positive",
    "C97_start_values",
    "C97_refused",
    "C97_angle",
    "C97_angle_refuted",
    "C97_amplitude_refuted",
    "C97_units_ellipse",
    "C97_units_circle",
    "C97_units_rotated"
   ],
   "note": "Refuted: setKernelShape to another shape (ValueError, state half changed), direction of the angle, amplitude of 1. Not modelled: fixed parameters that are models, shapes given as non-integer numbers."
  },
  {
   "property": "C98",
   "status": "partial",
   "theorems": [
    "C98_quiet",
    "C98_brief",
    "C98_brief_length",
    "C98_full",
    "C98_once_refuted",
    "C98_robust",
    "C98_robust_end",
    "C98_robust_brief",
    "C98_shown",
    "C98_maxiter",
    "C98_plot_refuted",
    "C98_plot"
   ],
   "note": "Refuted: each iteration printed once (the last one of LevenbergMarquardtFitter is printed twice), plots of the progress (AttributeError). The format of the numbers is modelled in M_Tools; timing of plots is not modelled."
  },
  {
   "property": "C99",
   "status": "partial",
   "theorems": [
    "C99_fits",
    "C99_named",
    "C99_number",
    "C99_shrink",
    "C99_shrink_error",
    "C99_grow_refuted",
    "C99_default"
   ],
   "note": "Refuted: names given by the user survive a birth."
  },
  {
   "property": "C100",
   "status": "partial",
   "theorems": [
    "C100_accept",
    "C100_refused",
    "C100_iterative",
    "C100_nan",
    "C100_accuracy",
    "C100_weights",
    "C100_weight_values",
    "C100_list_refuted",
    "C100_negative_refuted"
   ],
   "note": "Refuted: accuracy as a list (TypeError), negative weights (accepted). Not modelled: the rearrangement by an imageAssistant, arrays of unequal length."
  },
  {
   "property": "C101",
   "status": "partial",
   "theorems": [
    "C101_sound",
    "C101_single",
    "C101_noclass",
    "C101_multiple_refuted"
   ],
   "note": "Refuted for multiple inheritance."
  },
  {
   "property": "C102",
   "status": "partial",
   "theorems": [
    "C102_split",
    "C102_reset",
    "C102_last",
    "C102_members",
    "C102_copy",
    "C102_append",
    "C102_append_refuted",
    "C102_linear_head",
    "C102_negative",
    "C102_negative_refuted"
   ],
   "note": "Refuted for what was stated of a model that is appended to another (it is lost), and for indices counted from the end."
  },
  {
   "property": "C103",
   "status": "partial",
   "theorems": [
    "C103_gauss",
    "C103_lorentz",
    "C103_pseudovoigt",
    "C103_pseudovoigt_width",
    "C103_pseudovoigt_width_refuted",
    "C103_lorentz_integral",
    "C103_arctan",
    "C103_logistic",
    "C103_logistic_formula",
    "C103_logistic_formula_refuted",
    "C103_exp",
    "C103_powerlaw",
    "C103_sine",
    "C103_sine_phase",
    "C103_sine_init",
    "C103_sines",
    "C103_drift",
    "C103_harmonic",
    "C103_etalon",
    "C103_etalon_negative",
    "C103_etalon_infinite",
    "C103_etalon_drift",
    "C103_chebyshev",
    "C103_pade",
    "C103_linear_init",
    "C103_harmonic_init_refuted",
    "C103_init",
    "C103_pade_init"
   ],
   "note": "Refuted: the width of PseudoVoigtModel is no half-width, the documented formula of LogisticModel has the other sign in the exponent, HarmonicModel is not initialised at 1. The silent correction of parameters is left out, as in M_Elem."
  },
  {
   "property": "C104",
   "status": "partial",
   "theorems": [
    "C104_built",
    "C104_checked",
    "C104_few",
    "C104_default_refuted",
    "C104_none_refuted",
    "C104_argument_refuted",
    "C104_argument",
    "C104_lines",
    "C104_leaf_line",
    "C104_text_unique"
   ],
   "note": "Refuted: with the default number of inputs, or None, a tree with splits cannot be built; the list of the caller is extended. How numbers are written in the text is not modelled; itypes is a list that is not empty."
  },
  {
   "property": "C105",
   "status": "partial",
   "theorems": [
    "C105_halley_converges",
    "C105_newton_converges",
    "C105_newton",
    "C105_fixed_converges",
    "C105_fixed",
    "C105_fixed_refuted"
   ],
   "note": "Convergence is proved up to an eccentricity of 0.4 (Halley), 0.5 (Newton) and 0.8 (fixed point), not above; in real numbers. Refuted: the fixed point method solves the equation with the opposite sign of what its documentation says."
  },
  {
   "property": "C106",
   "status": "partial",
   "theorems": [
    "C106_parameters",
    "C106_padding_refuted",
    "C106_maximum",
    "C106_generations",
    "C106_normalized",
    "C106_normalized_refuted",
    "C106_first",
    "C106_kept",
    "C106_modus_refuted",
    "C106_median_refuted",
    "C106_last",
    "C106_rising",
    "C106_average_defined",
    "C106_average_values",
    "C106_dynamic_refuted",
    "C106_dynamic_error",
    "C106_empty"
   ],
   "note": "Refuted: the parameters of dynamic models are not zero-padded (ValueError); the flag normalized stays after weeding; the kept modus is not the heaviest sample after adding, and the kept median may be out of range after weeding (IndexError); averages of samples with different numbers of parameters are not always a ValueError. Circular priors are in C81; evolutions of hyper parameters are not modelled."
  },
  {
   "property": "C107",
   "status": "partial",
   "theorems": [
    "C107_first",
    "C107_list_evidence_refuted",
    "C107_again",
    "C107_again_refuted",
    "C107_linear_refuted",
    "C107_list_base"
   ],
   "note": "Proved without weeding (maxsize None). Refuted: logZ and evidence of the list of samples are 0 after a run (another attribute, LogZ, is set); in a second run the samples of the first stay, with the share 1/(1+Z); a second run with a linear model makes no iterations, as the iteration number is not set back."
  },
  {
   "property": "C108",
   "status": "proved",
   "theorems": [
    "C108_first_copy",
    "C108_position",
    "C108_names",
    "C108_names_unique",
    "C108_names_all",
    "C108_untied",
    "C108_tied_refuted",
    "C108_chain_refuted"
   ],
   "note": "Names (C108_names, _names_unique, _names_all) and the priors of the first copy hold for all CombiModels; without ties the priors of the other copies too (C108_untied). With ties they do not: the prior is taken at the place in the untied list (C108_position, refuted in C108_tied_refuted), and the priors of models after a CombiModel in a chain are not found (C108_chain_refuted)."
  },
  {
   "property": "C109",
   "status": "partial",
   "theorems": [
    "C109_set",
    "C109_succeeds",
    "C109_error_refuted",
    "C109_copy",
    "C109_copy_refuted",
    "C109_limits",
    "C109_limits_refuted"
   ],
   "note": "Setting and getting (C109_set, _succeeds), the priors of a copy (C109_copy) and hasLimits when the repeated model has its priors beforehand (C109_limits) are proved. Refuted: numbers that are too high give an AttributeError (C109_error_refuted); a prior that is set in a copy is set in the original too (C109_copy_refuted); hasLimits stays False when the priors are set on the RepeatingModel (C109_limits_refuted)."
  },
  {
   "property": "C110",
   "status": "proved",
   "theorems": [
    "C110_engine",
    "C110_stored",
    "C110_stored_step",
    "C110_stored_chord",
    "C110_stored_galilean",
    "C110_sample",
    "C110_copy",
    "C110_frozen",
    "C110_view_refuted"
   ],
   "note": "Arrays are modelled with their addresses (M_Memory). C110_frozen is about sequences of collecting, copying and engine calls; C110_stored and its three companions cut a call at any point. Finding: the parameters of a sample are a view of those of the walker, so that writing in them changes the walker (C110_view_refuted); the sampler itself never does so."
  },
  {
   "property": "C111",
   "status": "proved",
   "theorems": [
    "C111_step",
    "C111_limits",
    "C111_parameters",
    "C111_assign",
    "C111_assigned",
    "C111_ncomp_refuted",
    "C111_splines_refuted",
    "C111_copy_refuted",
    "C111_copy",
    "C111_repeating_refuted",
    "C111_last",
    "C111_copy_delta"
   ],
   "note": "M_DynAttr. The negative claims are the _refuted theorems. A RepeatingModel is taken as dynamic; C111_parameters has it with at least one component. Values and names of the parameters are in M_Dynamic."
  },
  {
   "property": "C112",
   "status": "proved",
   "theorems": [
    "C112_isolate",
    "C112_shared_refuted",
    "C112_inside_refuted",
    "C112_fails_refuted",
    "C112_copy",
    "C112_copy_head_fails",
    "C112_copy_fails_refuted"
   ],
   "note": "M_Isolate: objects and arrays in a heap. The negative claims are the _refuted theorems. Units, names, priors and fixed parameters of the models are not in this model."
  },
  {
   "property": "C113",
   "status": "proved",
   "theorems": [
    "C113_members",
    "C113_build",
    "C113_copy",
    "C113_plus",
    "C113_assign",
    "C113_forgotten_refuted",
    "C113_short_refuted",
    "C113_count_refuted"
   ],
   "note": "M_Bracket: parameters as values. The negative claims are the _refuted theorems."
  }
 ]
}