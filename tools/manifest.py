"""Write MANIFEST.json from the table below (run from anywhere)."""
import json, os
P, Q, N = "proved", "partial", "not_applicable"
CLAIMS = [
 ("C01", P, "C01_number_of_periods C01_padding", ""),
 ("C02", P, "C02_rows_of_update_table", ""),
 ("C03", Q, "C03_anchoring_rows C03_measurement_rows_partial C03_refuted", "Anchoring rows are characterized for all models. That measurements keep their purpose needs that no measurement is called like an anchoring equation; C03_refuted shows the hypothesis is needed."),
 ("C04", P, "C04_stagemap_validated C04_stages_without_holes", ""),
 ("C05", P, "C05_normalizations_valid C05_acceptance", ""),
 ("C06", Q, "C06_optional_sections_partial C06_no_anchoring C06_refuted", "All optional sections behave like their defaults, except that leaving out estimation_options raises KeyError."),
 ("C07", Q, "C07_index_unique_partial C07_refuted", "Holds for unambiguous names; C07_refuted is a model with dashes in factor names and duplicate labels."),
 ("C08", P, "C08_index_contents", ""),
 ("C09", P, "C09_measurement_parameters C09_parsing_succeeds", "For models whose parameter labels are unique, which holds for unambiguous names (C07)."),
 ("C10", P, "C10_initial_distribution", "For models whose parameter labels are unique (C07)."),
 ("C11", P, "C11_transition_parameters", "For models whose parameter labels are unique (C07)."),
 ("C12", Q, "C12_anchoring_factors_partial C12_refuted", "Proved if the anchoring outcomes are listed in the order of the factors; C12_refuted is a model where a factor is scaled by the loading of another one."),
 ("C13", P, "C13_row_order C13_errors C13_likelihood_reads_labels", ""),
 ("C14", Q, "C14_constraints_select_parameters_partial C14_refuted", "Needs latent anchored factors, at least one mixture element, no custom function called log_ces, and a transition parameter if stages repeat; C14_refuted: all factors constant with a repeated stage gives a constraint that selects nothing."),
 ("C15", P, "C15_normalizations_take_effect", "For models whose parameter labels are unique (C07)."),
 ("C16", P, "C16_stage_constraints", ""),
 ("C17", P, "C17_anchoring_restrictions", ""),
 ("C18", Q, "C18_bounds_partial C18_refuted", "Holds for unambiguous names; C18_refuted is a model with dashes in factor names where an off-diagonal element is bounded."),
 ("C19", Q, "C19_satisfiable_partial C19_refuted C19_refuted_shared_measurement", "Proved without constant factors (or without positive bounds) and for consistent normalizations; both hypotheses are needed."),
 ("C20", P, "C20_ids", ""),
 ("C21", P, "C21_mixture_constraints", ""),
 ("C22", P, "C22_balanced_panel", ""),
 ("C23", P, "C23_row_order", ""),
 ("C24", Q, "C24_periods_from_zero_partial C24_refuted", "Proved for indices without unused period levels; C24_refuted shows that a filtered data set shifts the periods."),
 ("C25", P, "C25_no_measurement_without_controls", ""),
 ("C26", P, "C26_only_incomplete_discarded", ""),
 ("C27", Q, "C27_observed_factors_complete_partial C27_refuted", "Observed factors are missing exactly for the observations that are discarded because of missing controls; C27_refuted is such a data set."),
 ("C28", P, "C28_check_exact", ""),
 ("C29", P, "C29_arrays_by_label C29_controls_and_observed_by_label", "For models whose anchoring outcomes are genuine variables with distinct copies (clear_outcomes)."),
 ("C30", P, "C30_textbook_update C30_variance_positive", "Floating point numbers are real numbers, also for C31-C40. Any QR decomposition that is correct; gram_schmidt_correct (QRWitness.v) shows that one exists."),
 ("C31", P, "C31_missing_ignored C31_controls_irrelevant", ""),
 ("C32", P, "C32_bayes C32_normalized", "For non-zero measurement standard deviations."),
 ("C33", P, "C33_contribution", "For non-zero measurement standard deviations and weights that sum to one."),
 ("C34", P, "C34_order_irrelevant C34_only_the_distribution_matters", "For non-zero measurement standard deviations."),
 ("C35", P, "C35_individuals_independent", ""),
 ("C36", P, "C36_sigma_points", "Where sigma points can be computed at all, see C40."),
 ("C37", P, "C37_exact_for_affine", "Where predictions can be computed at all, see C40. The covariance needs kappa >= 0 because the code takes the root of the weights."),
 ("C38", P, "C38_scatter_plus_shocks", "Where predictions can be computed at all, see C40."),
 ("C39", P, "C39_anchored_transition C39_no_anchoring", "Where predictions can be computed at all, see C40. That parsing gives scale one and constant zero to observed factors is part of C12_anchoring_factors_partial."),
 ("C40", Q, "C40_computable_partial C40_refuted C40_predict_refuted", "Fails for two or more mixture elements together with observed factors; proved otherwise."),
 ("C41", Q, "C41_schedule_partial C41_refuted", "Proved if every period has an equation; C41_refuted is a model with an empty period whose transitions are skipped."),
 ("C42", P, "C42_sum_of_contributions", ""),
 ("C43", P, "C43_individuals_independent C43_for_the_model_transition", "The QR decomposition only reads existing entries (local_qr), which holds e.g. for gram_schmidt."),
 ("C44", P, "C44_debug_agrees", "The values that process_debug_data passes on unchanged."),
 ("C45", P, "C45_anchoring_update C45_states_ignore_outcomes", ""),
 ("C46", P, "C46_soft_clipping", ""),
 ("C47", Q, "C47_both_bounds_partial C47_refuted C47_refuted_distinct_bounds", "The upper bound always holds; the lower bound only up to log(2) / upper hardness."),
 ("C48", Q, "C48_filtered_states_partial C48_weighted_average C48_refuted C48_refuted_crash", "Holds if every period has a measurement equation and no factor is called period or id; otherwise periods are mislabelled or the processing crashes."),
 ("C49", Q, "C49_rows C49_ids_partial C49_refuted", "The ids are right for one mixture element and in the table of contributions; with several mixture elements they are row numbers."),
 ("C50", P, "C50_ranges C50_ranges_exist", ""),
 ("C51", Q, "C51_anchored_states_partial C51_get_filtered_states_partial C51_refuted", "Holds if the anchored factors are listed in the order of the factors; otherwise factors get each other's anchoring parameters."),
 ("C52", P, "C52_remove_factors C52_extract_factors C52_remove_controls C52_remove_measurements C52_switch_translog_to_linear", "Also states exactly when the reduced model is accepted: KeyError without controls section or with anchoring but no outcomes, error if no measured factor is left."),
 ("C53", Q, "C53_extended_partial C53_reduced_periods_partial C53_zero_periods C53_refuted", "Extending also replaces missing values of labels that are not new (C53_refuted); everything else holds."),
 ("C54", P, "C54_remove_factors C54_extract_factors C54_remove_measurements C54_warning C54_remove_controls C54_reduce_n_periods C54_negative_periods", "Removing the factors that are measured last also shortens stagemap and empty normalizations."),
 ("C55", P, "C55_switch C55_round_trip C55_round_trip_params", ""),
 ("C56", P, "C56_update_parameter_values C56_cases C56_errors C56_same_index", ""),
 ("C57", P, "C57_parameters_match_regressors C57_model_transition C57_individual_functions", "Custom functions are arbitrary functions that return a number."),
 ("C58", P, "C58_nesting", ""),
 ("C59", P, "C59_log_ces_is_a_mean", ""),
 ("C60", P, "C60_measurement_equation C60_no_noise", "Random numbers come from an arbitrary generator. No factor or measurement may be called id or period."),
 ("C61", Q, "C61_states_follow_model C61_anchored_states_partial", "The states are proved; the table of anchored states only if the anchored factors are listed in the order of the factors (see C51)."),
 ("C62", P, "C62_effect_on_states C62_effect_on_measurements C62_ignored_periods C62_invalid_policies", "The effect is already part of the states and measurements of the period, not only of the next one."),
 ("C63", P, "C63_cells C63_trimmed", "Trimming drops the rows and columns without any visible value, i.e. also those whose visible cells are all undefined."),
 ("C65", P, "C65_constraints_are_the_documented_restrictions", ""),
 ("C66", Q, "C66_missing_values_partial C66_refuted", "Holds without clipping; with the default options every missing value adds a (tiny) positive amount."),
 ("C67", P, "C67_simulation_succeeds C67_measurements_required", "Under the assumption that random numbers can be drawn with the weights, if there are several mixture elements."),
 ("C68", P, "C68_initial_states", "Mixture weights must be positive because they are parsed as logarithms."),
 ("C69", P, "C69_params_by_label C69_missing_params_are_nan C69_duplicate_params", ""),
 ("C70", P, "C70_likelihood_is_integral C70_integral_unique C70_numerical_choices_irrelevant", "In exact arithmetic. Several mixture elements together with observed factors are excluded because the likelihood raises an error for them (C40)."),
 ("C71", P, "C71_filtered_is_posterior", ""),
 ("C72", P, "C72_measurement_correlations C72_errors C72_missing_column", "Models in which a measurement has the name of an anchoring equation are excluded (C03)."),
 ("C73", P, "C73_correlation_matrix", ""),
 ("C74", P, "C74_quasi_scores", ""),
 ("C75", P, "C75_units C75_units_scores C75_row_order", ""),
 ("C76", P, "C76_scores C76_scores_exact", ""),
 ("C77", Q, "C77_quasi_scores_partial C77_quasi_scores_refuted", "Negative loadings flip the sign; several measurements per factor get different weights."),
 ("C78", Q, "C78_default_bounds_partial C78_default_bounds_refuted C78_missing_value C78_single_variable C78_two_variables_trimmed", "The maximum is taken below the diagonal of the trimmed matrix, so the first subdiagonal of the original one is ignored."),
 ("C79", Q, "C79_annotations_partial C79_annotations_refuted", "Needs unique labels."),
 ("C80", P, "C80_user_arguments", ""),
 ("C81", P, "C81_fixed_quantiles", "Quantiles, filter and transition equations as in SpecPlots."),
 ("C82", P, "C82_average", "Any way of drawing without replacement; needs distinct grid points (lo < hi or at most one point), as equal ones are merged."),
 ("C83", P, "C83_last_period C83_invalid_arguments", "Finding: the default of 50 draws fails with fewer individuals."),
 ("C84", P, "C84_combined_figure C84_every_plot_is_shown", ""),
 ("C85", Q, "C85_mapping_changed_refuted C85_mapping_kept_partial C85_layout", "The mapping of displayed names is extended in place."),
 ("C64", Q, "C64_contours_refuted C64_contours_partial", "The matrix of densities is transposed; right only for symmetric densities on equal grids."),
 ("C86", P, "C86_univariate_densities C86_default_states", "Any density estimator; no observed factors (C88)."),
 ("C87", P, "C87_contours C87_surfaces C87_surfaces_need_one_table", "The orientation of contours is C64."),
 ("C89", Q, "C89_combined_partial C89_failed_surface_refuted C89_plots_of_the_package", "The empty figure of a failed surface makes the call fail."),
 ("C88", Q, "C88_univariate_partial C88_contours_partial C88_two_observed_factors_refuted C88_scenarios_refuted C88_labels_refuted C88_individuals_refuted", "Right for one observed factor in sorted data with plain labels and one row per individual."),
 ("C90", Q, "C90_mapping_changed_refuted C90_mapping_kept_partial", "The mapping of displayed names is extended in place."),
 ("C91", P, "C91_decomposition_irrelevant", "Both decompositions are arbitrary functions with an upper triangular result whose Gram matrix is right."),
 ("C92", P, "C92_anchoring_removes_the_normalization", "Hypotheses as in C91, plus anchored factors in the order of the factors (the code mixes them up otherwise, see C12) and a measurement or anchoring equation in every period (see C41)."),
 ("C93", P, "C93_first_periods", "for the debug output, which contains the value and the contributions; the two models are related by reduce_n_periods without parameters; processing the data is assumed to succeed for both"),
 ("C94", P, "C94_removed_is_missing", "for the debug output; the assumption that every period keeps an equation cannot be dropped (C41_refuted)"),
 ("C95", P, "C95_removed_controls", "C95_missing_controls_matter shows why missing values of removed controls are excluded"),
 ("C96", P, "C96_switched_likelihood", "switch_linear_to_translog itself fills the new coefficients with 0.05 instead (C53)"),
 ("C97", Q, "C97_factor_order_partial C97_nonlinear_refuted", "Proved for models with linear and constant transition functions, with anchoring, controls, mixtures and missing data. False of the code for other functions: with a translog function the prediction step returns different covariances for the two orders (C97_nonlinear_refuted), because sigma points are taken along the rows of the triangular square root."),
 ("C98", P, "C98_gradient C98_dictionary C98_row_order C98_sum_over_individuals C98_rows_refuted", "Automatic differentiation is an arbitrary function with the contract correct_gradient (an entry is the partial derivative wherever there is one). C98_rows_refuted records the consequence that the entries do not follow the rows that the user passes."),
 ("C99", P, "C99_differentiable C99_gradient_entries C99_robust_translog_refuted", "The QR decomposition is any correct one, without any assumption that it depends smoothly on its argument: the filter's results are shown to depend on it only up to signs of rows, so that they are smooth although the factors need not be. robust_translog is excluded, since it has no derivative at its clipping bounds (C99_robust_translog_refuted). The property excludes the degenerate anchoring specifications (clean_anchoring) for which loglike itself fails or reports other values, see C11."),
 ("C100", P, "C100_same_mixture", "SpecMixtures.v says what the same mixture means; the run-level induction is in MixtureMap.v. Nonlinear transition functions, anchoring and missing data are covered."),
 ("C101", P, "C101_restrictions", "Equality of the complete results, including errors. The constraints, in which these entries do have an effect, are the subject of C14 - C21 and C65."),
 ("C102", Q, "C102_report_partial C102_readable C102_typed C102_controls_refuted C102_values_refuted C102_crash_refuted", "The report is exact whenever the specification can be read (C102_report_partial), which is the case for the documented containers (C102_readable). Missing, because it is false: controls or observed factors given as a string are split into characters, normalized values, names of controls and the number of mixture elements are not checked (C102_controls_refuted, C102_values_refuted), and some wrong containers raise a TypeError or AttributeError before the report (C102_crash_refuted)."),
 ("C103", P, "C103_other_units C103_same_maximizers C103_origins_and_signs", "Specification in SpecUnits.v; C103_nonvacuous converts the example data with factors 2, -1, 1, -3 and shifted origins, including a shifted control."),
 ("C104", P, "C104_more_measurements C104_values_irrelevant", "Specification in SpecPrecision.v; C104_nonvacuous compares the example data with a data set in which one measurement is missing and every value differs."),
 ("C105", P, "C105_exact_means", "Specification in SpecQuadratic.v; C105_C106_nonvacuous instantiates all hypotheses for a model in which a factor becomes the product of two factors."),
 ("C106", Q, "C106_exact_covariances_partial C106_refuted", "Proved if one of the two production functions is linear or constant (the third central moments have to be zero), and for models with one latent factor and sigma_points_scale 2. Missing because false: two or more factors with two quadratic production functions (C106_refuted: if a factor becomes the product of two independent factors, the filter predicts no variance besides the shock, the true variance is 1)."),
 ("C107", Q, "C107_anchored_likelihood_partial C107_refuted", "Proved: the likelihood is the mixture of products of predictive densities of every variable (outcomes included) given the measurements (outcomes excluded) before it; the filtered states are the means given the measurements. Missing because false: it is not the joint density; C107_refuted has a one-factor model in which the reported value is 1/(2 pi sqrt 6) and the joint density 1/(2 pi sqrt 5)."),
 ("C108", P, "C108_likelihood_is_a_density", "The value of an individual in the debug output (sum of the contributions of all equations, which is the reported contribution if there is no clipping); for any correct QR routine that decomposes each matrix on its own. Consistent with C107: the likelihood of anchored models is a density, but not the one of the model."),
 ("C109", P, "C109_truth_maximizes_expected_likelihood", "Information inequality for the modelled likelihood. The nonvacuity example computes both expectations of a two-period model in closed form, with a strict inequality."),
 ("C110", P, "C110_simulated_from_likelihood", "The density is the one of C105 and C107 (element_density). The initial draw itself is the mixture of C61; that the map from random numbers to factors and measurements is a shift in each coordinate, given the earlier ones, is what the equality of densities says."),
 ("C111", P, "C111_scale_and_location_absorbed C111_normalizations_without_loss C111_stages_kept", "(2) is not claimed for log_ces, whose common exponent ties the scales of all factors together, nor for robust_translog and custom functions. The general CES functions need a nonzero tfp and proper shares (proper_productions). The equality of coefficients within a development stage is kept only for time-constant scales (3): normalizing every period and requiring equal coefficients within stages can be a restriction."),
 ("C112", P, "C112_distplot C112_contours C112_layout C112_surface_layout C112_surface_titles C112_grid C112_surfaces_in_scenes", "Merging of a user scene into a figure is plotly's and not modelled. If the user passes scene, the arguments showgrids, showaxlines and showlabels have no effect, as C112_surface_layout says."),
 ("C113", P, "C113_transition_function C113_individual_functions C113_keyword_arguments C113_callables_take_params C113_individual_needs_states C113_reserved_names", "The concatenation of functions by dags and rename_arguments are modelled by contract (values by name, arguments sorted by name); C113_transition_function shows that the coarser model of the transition function used by all other properties is what this graph computes."),
 ("C114", P, "C114_names C114_accepted C114_estimable", "The new names must not be confusing (good_names, clear_outcomes, clean_anchoring), as the old ones, and no control or observed factor may be called like the column outcome_factor that anchoring creates (own_columns)."),
 ("C115", P, "C115_relabelled C115_pooled", "The QR decomposition is assumed to read only the entries that exist (local_qr), as in C43. The sum is over the reals."),
 ("C116", P, "C116_any_order C116_any_order_of_models C116_success C116_success_in_any_order C116_at_once", "For sequences that remove controls, success does depend on the order (C116_controls_refuted): the section is dropped with the last control and the next call raises KeyError. Names as in good_names; the table has a column value and unique labels."),
 ("C117", Q, "C117_reduced_params_meet_constraints_partial C117_extended_params_meet_constraints C117_removed_share_refuted C117_removed_order_refuted", "Partial because the full claim is false if factors are removed: shares of a log_ces function that is left no longer add up to one (C117_removed_share_refuted), and with several mixture components the order is imposed on another factor if the first one is removed (C117_removed_order_refuted). Proved for all reductions with these two exceptions (shares_kept, order_kept), in particular for all sequences that remove no factors."),
 ("C118", P, "C118_reduced_bounds C118_extended_bounds C118_values_within_bounds", "Names as in good_names. Together with C117: start values taken from another model are feasible for the new one."),
 ("C119", P, "C119_update_with_own_parts C119_update_is_recovered", "Values must be complete: reduce_n_periods fills missing values with 0.05, so updating with a part fills them in the table (C119_missing_values_refuted). Names as in good_names."),
]
here = os.path.dirname(os.path.abspath(__file__))
out = {"claims": [dict(property=a, status=b, theorems=c.split(), note=d) for a, b, c, d in CLAIMS]}
with open(os.path.join(here, "..", "MANIFEST.json"), "w") as f:
    json.dump(out, f, indent=1)
    f.write("\n")
