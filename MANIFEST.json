{
 "claims": [
  {
   "property": "C01",
   "status": "proved",
   "theorems": [
    "C01_number_of_periods",
    "C01_padding"
   ],
   "note": ""
  },
  {
   "property": "C02",
   "status": "proved",
   "theorems": [
    "C02_rows_of_update_table"
   ],
   "note": ""
  },
  {
   "property": "C03",
   "status": "partial",
   "theorems": [
    "C03_anchoring_rows",
    "C03_measurement_rows_partial",
    "C03_refuted"
   ],
   "note": "Anchoring rows are characterized for all models. That measurements keep their purpose needs that no measurement is called like an anchoring equation; C03_refuted shows the hypothesis is needed."
  },
  {
   "property": "C04",
   "status": "proved",
   "theorems": [
    "C04_stagemap_validated",
    "C04_stages_without_holes"
   ],
   "note": ""
  },
  {
   "property": "C05",
   "status": "proved",
   "theorems": [
    "C05_normalizations_valid",
    "C05_acceptance"
   ],
   "note": ""
  },
  {
   "property": "C06",
   "status": "partial",
   "theorems": [
    "C06_optional_sections_partial",
    "C06_no_anchoring",
    "C06_refuted"
   ],
   "note": "All optional sections behave like their defaults, except that leaving out estimation_options raises KeyError."
  },
  {
   "property": "C07",
   "status": "partial",
   "theorems": [
    "C07_index_unique_partial",
    "C07_refuted"
   ],
   "note": "Holds for unambiguous names; C07_refuted is a model with dashes in factor names and duplicate labels."
  },
  {
   "property": "C08",
   "status": "proved",
   "theorems": [
    "C08_index_contents"
   ],
   "note": ""
  },
  {
   "property": "C09",
   "status": "proved",
   "theorems": [
    "C09_measurement_parameters",
    "C09_parsing_succeeds"
   ],
   "note": "For models whose parameter labels are unique, which holds for unambiguous names (C07)."
  },
  {
   "property": "C10",
   "status": "proved",
   "theorems": [
    "C10_initial_distribution"
   ],
   "note": "For models whose parameter labels are unique (C07)."
  },
  {
   "property": "C11",
   "status": "proved",
   "theorems": [
    "C11_transition_parameters"
   ],
   "note": "For models whose parameter labels are unique (C07)."
  },
  {
   "property": "C12",
   "status": "partial",
   "theorems": [
    "C12_anchoring_factors_partial",
    "C12_refuted"
   ],
   "note": "Proved if the anchoring outcomes are listed in the order of the factors; C12_refuted is a model where a factor is scaled by the loading of another one."
  },
  {
   "property": "C13",
   "status": "proved",
   "theorems": [
    "C13_row_order",
    "C13_errors",
    "C13_likelihood_reads_labels"
   ],
   "note": ""
  },
  {
   "property": "C14",
   "status": "partial",
   "theorems": [
    "C14_constraints_select_parameters_partial",
    "C14_refuted"
   ],
   "note": "Needs latent anchored factors, at least one mixture element, no custom function called log_ces, and a transition parameter if stages repeat; C14_refuted: all factors constant with a repeated stage gives a constraint that selects nothing."
  },
  {
   "property": "C15",
   "status": "proved",
   "theorems": [
    "C15_normalizations_take_effect"
   ],
   "note": "For models whose parameter labels are unique (C07)."
  },
  {
   "property": "C16",
   "status": "proved",
   "theorems": [
    "C16_stage_constraints"
   ],
   "note": ""
  },
  {
   "property": "C17",
   "status": "proved",
   "theorems": [
    "C17_anchoring_restrictions"
   ],
   "note": ""
  },
  {
   "property": "C18",
   "status": "partial",
   "theorems": [
    "C18_bounds_partial",
    "C18_refuted"
   ],
   "note": "Holds for unambiguous names; C18_refuted is a model with dashes in factor names where an off-diagonal element is bounded."
  },
  {
   "property": "C19",
   "status": "partial",
   "theorems": [
    "C19_satisfiable_partial",
    "C19_refuted",
    "C19_refuted_shared_measurement"
   ],
   "note": "Proved without constant factors (or without positive bounds) and for consistent normalizations; both hypotheses are needed."
  },
  {
   "property": "C20",
   "status": "proved",
   "theorems": [
    "C20_ids"
   ],
   "note": ""
  },
  {
   "property": "C21",
   "status": "proved",
   "theorems": [
    "C21_mixture_constraints"
   ],
   "note": ""
  },
  {
   "property": "C22",
   "status": "proved",
   "theorems": [
    "C22_balanced_panel"
   ],
   "note": ""
  },
  {
   "property": "C23",
   "status": "proved",
   "theorems": [
    "C23_row_order"
   ],
   "note": ""
  },
  {
   "property": "C24",
   "status": "partial",
   "theorems": [
    "C24_periods_from_zero_partial",
    "C24_refuted"
   ],
   "note": "Proved for indices without unused period levels; C24_refuted shows that a filtered data set shifts the periods."
  },
  {
   "property": "C25",
   "status": "proved",
   "theorems": [
    "C25_no_measurement_without_controls"
   ],
   "note": ""
  },
  {
   "property": "C26",
   "status": "proved",
   "theorems": [
    "C26_only_incomplete_discarded"
   ],
   "note": ""
  },
  {
   "property": "C27",
   "status": "partial",
   "theorems": [
    "C27_observed_factors_complete_partial",
    "C27_refuted"
   ],
   "note": "Observed factors are missing exactly for the observations that are discarded because of missing controls; C27_refuted is such a data set."
  },
  {
   "property": "C28",
   "status": "proved",
   "theorems": [
    "C28_check_exact"
   ],
   "note": ""
  },
  {
   "property": "C29",
   "status": "proved",
   "theorems": [
    "C29_arrays_by_label",
    "C29_controls_and_observed_by_label"
   ],
   "note": "For models whose anchoring outcomes are genuine variables with distinct copies (clear_outcomes)."
  },
  {
   "property": "C30",
   "status": "proved",
   "theorems": [
    "C30_textbook_update",
    "C30_variance_positive"
   ],
   "note": "Floating point numbers are real numbers, also for C31-C40. Any QR decomposition that is correct; gram_schmidt_correct (QRWitness.v) shows that one exists."
  },
  {
   "property": "C31",
   "status": "proved",
   "theorems": [
    "C31_missing_ignored",
    "C31_controls_irrelevant"
   ],
   "note": ""
  },
  {
   "property": "C32",
   "status": "proved",
   "theorems": [
    "C32_bayes",
    "C32_normalized"
   ],
   "note": "For non-zero measurement standard deviations."
  },
  {
   "property": "C33",
   "status": "proved",
   "theorems": [
    "C33_contribution"
   ],
   "note": "For non-zero measurement standard deviations and weights that sum to one."
  },
  {
   "property": "C34",
   "status": "proved",
   "theorems": [
    "C34_order_irrelevant",
    "C34_only_the_distribution_matters"
   ],
   "note": "For non-zero measurement standard deviations."
  },
  {
   "property": "C35",
   "status": "proved",
   "theorems": [
    "C35_individuals_independent"
   ],
   "note": ""
  },
  {
   "property": "C36",
   "status": "proved",
   "theorems": [
    "C36_sigma_points"
   ],
   "note": "Where sigma points can be computed at all, see C40."
  },
  {
   "property": "C37",
   "status": "proved",
   "theorems": [
    "C37_exact_for_affine"
   ],
   "note": "Where predictions can be computed at all, see C40. The covariance needs kappa >= 0 because the code takes the root of the weights."
  },
  {
   "property": "C38",
   "status": "proved",
   "theorems": [
    "C38_scatter_plus_shocks"
   ],
   "note": "Where predictions can be computed at all, see C40."
  },
  {
   "property": "C39",
   "status": "proved",
   "theorems": [
    "C39_anchored_transition",
    "C39_no_anchoring"
   ],
   "note": "Where predictions can be computed at all, see C40. That parsing gives scale one and constant zero to observed factors is part of C12_anchoring_factors_partial."
  },
  {
   "property": "C40",
   "status": "partial",
   "theorems": [
    "C40_computable_partial",
    "C40_refuted",
    "C40_predict_refuted"
   ],
   "note": "Fails for two or more mixture elements together with observed factors; proved otherwise."
  },
  {
   "property": "C41",
   "status": "partial",
   "theorems": [
    "C41_schedule_partial",
    "C41_refuted"
   ],
   "note": "Proved if every period has an equation; C41_refuted is a model with an empty period whose transitions are skipped."
  },
  {
   "property": "C42",
   "status": "proved",
   "theorems": [
    "C42_sum_of_contributions"
   ],
   "note": ""
  },
  {
   "property": "C43",
   "status": "proved",
   "theorems": [
    "C43_individuals_independent",
    "C43_for_the_model_transition"
   ],
   "note": "The QR decomposition only reads existing entries (local_qr), which holds e.g. for gram_schmidt."
  },
  {
   "property": "C44",
   "status": "proved",
   "theorems": [
    "C44_debug_agrees"
   ],
   "note": "The values that process_debug_data passes on unchanged."
  },
  {
   "property": "C45",
   "status": "proved",
   "theorems": [
    "C45_anchoring_update",
    "C45_states_ignore_outcomes"
   ],
   "note": ""
  },
  {
   "property": "C46",
   "status": "proved",
   "theorems": [
    "C46_soft_clipping"
   ],
   "note": ""
  },
  {
   "property": "C47",
   "status": "partial",
   "theorems": [
    "C47_both_bounds_partial",
    "C47_refuted",
    "C47_refuted_distinct_bounds"
   ],
   "note": "The upper bound always holds; the lower bound only up to log(2) / upper hardness."
  },
  {
   "property": "C48",
   "status": "partial",
   "theorems": [
    "C48_filtered_states_partial",
    "C48_weighted_average",
    "C48_refuted",
    "C48_refuted_crash"
   ],
   "note": "Holds if every period has a measurement equation and no factor is called period or id; otherwise periods are mislabelled or the processing crashes."
  },
  {
   "property": "C49",
   "status": "partial",
   "theorems": [
    "C49_rows",
    "C49_ids_partial",
    "C49_refuted"
   ],
   "note": "The ids are right for one mixture element and in the table of contributions; with several mixture elements they are row numbers."
  },
  {
   "property": "C50",
   "status": "proved",
   "theorems": [
    "C50_ranges",
    "C50_ranges_exist"
   ],
   "note": ""
  },
  {
   "property": "C51",
   "status": "partial",
   "theorems": [
    "C51_anchored_states_partial",
    "C51_get_filtered_states_partial",
    "C51_refuted"
   ],
   "note": "Holds if the anchored factors are listed in the order of the factors; otherwise factors get each other's anchoring parameters."
  },
  {
   "property": "C52",
   "status": "proved",
   "theorems": [
    "C52_remove_factors",
    "C52_extract_factors",
    "C52_remove_controls",
    "C52_remove_measurements",
    "C52_switch_translog_to_linear"
   ],
   "note": "Also states exactly when the reduced model is accepted: KeyError without controls section or with anchoring but no outcomes, error if no measured factor is left."
  },
  {
   "property": "C53",
   "status": "partial",
   "theorems": [
    "C53_extended_partial",
    "C53_reduced_periods_partial",
    "C53_zero_periods",
    "C53_refuted"
   ],
   "note": "Extending also replaces missing values of labels that are not new (C53_refuted); everything else holds."
  },
  {
   "property": "C54",
   "status": "proved",
   "theorems": [
    "C54_remove_factors",
    "C54_extract_factors",
    "C54_remove_measurements",
    "C54_warning",
    "C54_remove_controls",
    "C54_reduce_n_periods",
    "C54_negative_periods"
   ],
   "note": "Removing the factors that are measured last also shortens stagemap and empty normalizations."
  },
  {
   "property": "C55",
   "status": "proved",
   "theorems": [
    "C55_switch",
    "C55_round_trip",
    "C55_round_trip_params"
   ],
   "note": ""
  },
  {
   "property": "C56",
   "status": "proved",
   "theorems": [
    "C56_update_parameter_values",
    "C56_cases",
    "C56_errors",
    "C56_same_index"
   ],
   "note": ""
  },
  {
   "property": "C57",
   "status": "proved",
   "theorems": [
    "C57_parameters_match_regressors",
    "C57_model_transition",
    "C57_individual_functions"
   ],
   "note": "Custom functions are arbitrary functions that return a number."
  },
  {
   "property": "C58",
   "status": "proved",
   "theorems": [
    "C58_nesting"
   ],
   "note": ""
  },
  {
   "property": "C59",
   "status": "proved",
   "theorems": [
    "C59_log_ces_is_a_mean"
   ],
   "note": ""
  },
  {
   "property": "C60",
   "status": "proved",
   "theorems": [
    "C60_measurement_equation",
    "C60_no_noise"
   ],
   "note": "Random numbers come from an arbitrary generator. No factor or measurement may be called id or period."
  },
  {
   "property": "C61",
   "status": "partial",
   "theorems": [
    "C61_states_follow_model",
    "C61_anchored_states_partial"
   ],
   "note": "The states are proved; the table of anchored states only if the anchored factors are listed in the order of the factors (see C51)."
  },
  {
   "property": "C62",
   "status": "proved",
   "theorems": [
    "C62_effect_on_states",
    "C62_effect_on_measurements",
    "C62_ignored_periods",
    "C62_invalid_policies"
   ],
   "note": "The effect is already part of the states and measurements of the period, not only of the next one."
  },
  {
   "property": "C63",
   "status": "proved",
   "theorems": [
    "C63_cells",
    "C63_trimmed"
   ],
   "note": "Trimming drops the rows and columns without any visible value, i.e. also those whose visible cells are all undefined."
  },
  {
   "property": "C65",
   "status": "proved",
   "theorems": [
    "C65_constraints_are_the_documented_restrictions"
   ],
   "note": ""
  },
  {
   "property": "C66",
   "status": "partial",
   "theorems": [
    "C66_missing_values_partial",
    "C66_refuted"
   ],
   "note": "Holds without clipping; with the default options every missing value adds a (tiny) positive amount."
  },
  {
   "property": "C67",
   "status": "proved",
   "theorems": [
    "C67_simulation_succeeds",
    "C67_measurements_required"
   ],
   "note": "Under the assumption that random numbers can be drawn with the weights, if there are several mixture elements."
  },
  {
   "property": "C68",
   "status": "proved",
   "theorems": [
    "C68_initial_states"
   ],
   "note": "Mixture weights must be positive because they are parsed as logarithms."
  },
  {
   "property": "C69",
   "status": "proved",
   "theorems": [
    "C69_params_by_label",
    "C69_missing_params_are_nan",
    "C69_duplicate_params"
   ],
   "note": ""
  },
  {
   "property": "C70",
   "status": "proved",
   "theorems": [
    "C70_likelihood_is_integral",
    "C70_integral_unique",
    "C70_numerical_choices_irrelevant"
   ],
   "note": "In exact arithmetic. Several mixture elements together with observed factors are excluded because the likelihood raises an error for them (C40)."
  },
  {
   "property": "C71",
   "status": "proved",
   "theorems": [
    "C71_filtered_is_posterior"
   ],
   "note": ""
  },
  {
   "property": "C72",
   "status": "proved",
   "theorems": [
    "C72_measurement_correlations",
    "C72_errors",
    "C72_missing_column"
   ],
   "note": "Models in which a measurement has the name of an anchoring equation are excluded (C03)."
  },
  {
   "property": "C73",
   "status": "proved",
   "theorems": [
    "C73_correlation_matrix"
   ],
   "note": ""
  },
  {
   "property": "C74",
   "status": "proved",
   "theorems": [
    "C74_quasi_scores"
   ],
   "note": ""
  },
  {
   "property": "C75",
   "status": "proved",
   "theorems": [
    "C75_units",
    "C75_units_scores",
    "C75_row_order"
   ],
   "note": ""
  },
  {
   "property": "C76",
   "status": "proved",
   "theorems": [
    "C76_scores",
    "C76_scores_exact"
   ],
   "note": ""
  },
  {
   "property": "C77",
   "status": "partial",
   "theorems": [
    "C77_quasi_scores_partial",
    "C77_quasi_scores_refuted"
   ],
   "note": "Negative loadings flip the sign; several measurements per factor get different weights."
  },
  {
   "property": "C78",
   "status": "partial",
   "theorems": [
    "C78_default_bounds_partial",
    "C78_default_bounds_refuted",
    "C78_missing_value",
    "C78_single_variable",
    "C78_two_variables_trimmed"
   ],
   "note": "The maximum is taken below the diagonal of the trimmed matrix, so the first subdiagonal of the original one is ignored."
  },
  {
   "property": "C79",
   "status": "partial",
   "theorems": [
    "C79_annotations_partial",
    "C79_annotations_refuted"
   ],
   "note": "Needs unique labels."
  },
  {
   "property": "C80",
   "status": "proved",
   "theorems": [
    "C80_user_arguments"
   ],
   "note": ""
  },
  {
   "property": "C81",
   "status": "proved",
   "theorems": [
    "C81_fixed_quantiles"
   ],
   "note": "Quantiles, filter and transition equations as in SpecPlots."
  },
  {
   "property": "C82",
   "status": "proved",
   "theorems": [
    "C82_average"
   ],
   "note": "Any way of drawing without replacement; needs distinct grid points (lo < hi or at most one point), as equal ones are merged."
  },
  {
   "property": "C83",
   "status": "proved",
   "theorems": [
    "C83_last_period",
    "C83_invalid_arguments"
   ],
   "note": "Finding: the default of 50 draws fails with fewer individuals."
  },
  {
   "property": "C84",
   "status": "proved",
   "theorems": [
    "C84_combined_figure",
    "C84_every_plot_is_shown"
   ],
   "note": ""
  },
  {
   "property": "C85",
   "status": "partial",
   "theorems": [
    "C85_mapping_changed_refuted",
    "C85_mapping_kept_partial",
    "C85_layout"
   ],
   "note": "The mapping of displayed names is extended in place."
  },
  {
   "property": "C64",
   "status": "partial",
   "theorems": [
    "C64_contours_refuted",
    "C64_contours_partial"
   ],
   "note": "The matrix of densities is transposed; right only for symmetric densities on equal grids."
  },
  {
   "property": "C86",
   "status": "proved",
   "theorems": [
    "C86_univariate_densities",
    "C86_default_states"
   ],
   "note": "Any density estimator; no observed factors (C88)."
  },
  {
   "property": "C87",
   "status": "proved",
   "theorems": [
    "C87_contours",
    "C87_surfaces",
    "C87_surfaces_need_one_table"
   ],
   "note": "The orientation of contours is C64."
  },
  {
   "property": "C89",
   "status": "partial",
   "theorems": [
    "C89_combined_partial",
    "C89_failed_surface_refuted",
    "C89_plots_of_the_package"
   ],
   "note": "The empty figure of a failed surface makes the call fail."
  },
  {
   "property": "C88",
   "status": "partial",
   "theorems": [
    "C88_univariate_partial",
    "C88_contours_partial",
    "C88_two_observed_factors_refuted",
    "C88_scenarios_refuted",
    "C88_labels_refuted",
    "C88_individuals_refuted"
   ],
   "note": "Right for one observed factor in sorted data with plain labels and one row per individual."
  },
  {
   "property": "C90",
   "status": "partial",
   "theorems": [
    "C90_mapping_changed_refuted",
    "C90_mapping_kept_partial"
   ],
   "note": "The mapping of displayed names is extended in place."
  },
  {
   "property": "C91",
   "status": "proved",
   "theorems": [
    "C91_decomposition_irrelevant"
   ],
   "note": "Both decompositions are arbitrary functions with an upper triangular result whose Gram matrix is right."
  },
  {
   "property": "C92",
   "status": "proved",
   "theorems": [
    "C92_anchoring_removes_the_normalization"
   ],
   "note": "Hypotheses as in C91, plus anchored factors in the order of the factors (the code mixes them up otherwise, see C12) and a measurement or anchoring equation in every period (see C41)."
  },
  {
   "property": "C93",
   "status": "proved",
   "theorems": [
    "C93_first_periods"
   ],
   "note": "for the debug output, which contains the value and the contributions; the two models are related by reduce_n_periods without parameters; processing the data is assumed to succeed for both"
  },
  {
   "property": "C94",
   "status": "proved",
   "theorems": [
    "C94_removed_is_missing"
   ],
   "note": "for the debug output; the assumption that every period keeps an equation cannot be dropped (C41_refuted)"
  },
  {
   "property": "C95",
   "status": "proved",
   "theorems": [
    "C95_removed_controls"
   ],
   "note": "C95_missing_controls_matter shows why missing values of removed controls are excluded"
  },
  {
   "property": "C96",
   "status": "proved",
   "theorems": [
    "C96_switched_likelihood"
   ],
   "note": "switch_linear_to_translog itself fills the new coefficients with 0.05 instead (C53)"
  },
  {
   "property": "C97",
   "status": "partial",
   "theorems": [
    "C97_factor_order_partial",
    "C97_nonlinear_refuted"
   ],
   "note": "Proved for models with linear and constant transition functions, with anchoring, controls, mixtures and missing data. False of the code for other functions: with a translog function the prediction step returns different covariances for the two orders (C97_nonlinear_refuted), because sigma points are taken along the rows of the triangular square root."
  },
  {
   "property": "C98",
   "status": "proved",
   "theorems": [
    "C98_gradient",
    "C98_dictionary",
    "C98_row_order",
    "C98_sum_over_individuals",
    "C98_rows_refuted"
   ],
   "note": "Automatic differentiation is an arbitrary function with the contract correct_gradient (an entry is the partial derivative wherever there is one). C98_rows_refuted records the consequence that the entries do not follow the rows that the user passes."
  },
  {
   "property": "C99",
   "status": "proved",
   "theorems": [
    "C99_differentiable",
    "C99_gradient_entries",
    "C99_robust_translog_refuted"
   ],
   "note": "The QR decomposition is any correct one, without any assumption that it depends smoothly on its argument: the filter's results are shown to depend on it only up to signs of rows, so that they are smooth although the factors need not be. robust_translog is excluded, since it has no derivative at its clipping bounds (C99_robust_translog_refuted). The property excludes the degenerate anchoring specifications (clean_anchoring) for which loglike itself fails or reports other values, see C11."
  },
  {
   "property": "C100",
   "status": "proved",
   "theorems": [
    "C100_same_mixture"
   ],
   "note": "SpecMixtures.v says what the same mixture means; the run-level induction is in MixtureMap.v. Nonlinear transition functions, anchoring and missing data are covered."
  },
  {
   "property": "C101",
   "status": "proved",
   "theorems": [
    "C101_restrictions"
   ],
   "note": "Equality of the complete results, including errors. The constraints, in which these entries do have an effect, are the subject of C14 - C21 and C65."
  },
  {
   "property": "C102",
   "status": "partial",
   "theorems": [
    "C102_report_partial",
    "C102_readable",
    "C102_typed",
    "C102_controls_refuted",
    "C102_values_refuted",
    "C102_crash_refuted"
   ],
   "note": "The report is exact whenever the specification can be read (C102_report_partial), which is the case for the documented containers (C102_readable). Missing, because it is false: controls or observed factors given as a string are split into characters, normalized values, names of controls and the number of mixture elements are not checked (C102_controls_refuted, C102_values_refuted), and some wrong containers raise a TypeError or AttributeError before the report (C102_crash_refuted)."
  },
  {
   "property": "C103",
   "status": "proved",
   "theorems": [
    "C103_other_units",
    "C103_same_maximizers",
    "C103_origins_and_signs"
   ],
   "note": "Specification in SpecUnits.v; C103_nonvacuous converts the example data with factors 2, -1, 1, -3 and shifted origins, including a shifted control."
  },
  {
   "property": "C104",
   "status": "proved",
   "theorems": [
    "C104_more_measurements",
    "C104_values_irrelevant"
   ],
   "note": "Specification in SpecPrecision.v; C104_nonvacuous compares the example data with a data set in which one measurement is missing and every value differs."
  },
  {
   "property": "C105",
   "status": "proved",
   "theorems": [
    "C105_exact_means"
   ],
   "note": "Specification in SpecQuadratic.v; C105_C106_nonvacuous instantiates all hypotheses for a model in which a factor becomes the product of two factors."
  },
  {
   "property": "C106",
   "status": "partial",
   "theorems": [
    "C106_exact_covariances_partial",
    "C106_refuted"
   ],
   "note": "Proved if one of the two production functions is linear or constant (the third central moments have to be zero), and for models with one latent factor and sigma_points_scale 2. Missing because false: two or more factors with two quadratic production functions (C106_refuted: if a factor becomes the product of two independent factors, the filter predicts no variance besides the shock, the true variance is 1)."
  },
  {
   "property": "C107",
   "status": "partial",
   "theorems": [
    "C107_anchored_likelihood_partial",
    "C107_refuted"
   ],
   "note": "Proved: the likelihood is the mixture of products of predictive densities of every variable (outcomes included) given the measurements (outcomes excluded) before it; the filtered states are the means given the measurements. Missing because false: it is not the joint density; C107_refuted has a one-factor model in which the reported value is 1/(2 pi sqrt 6) and the joint density 1/(2 pi sqrt 5)."
  },
  {
   "property": "C108",
   "status": "proved",
   "theorems": [
    "C108_likelihood_is_a_density"
   ],
   "note": "The value of an individual in the debug output (sum of the contributions of all equations, which is the reported contribution if there is no clipping); for any correct QR routine that decomposes each matrix on its own. Consistent with C107: the likelihood of anchored models is a density, but not the one of the model."
  },
  {
   "property": "C109",
   "status": "proved",
   "theorems": [
    "C109_truth_maximizes_expected_likelihood"
   ],
   "note": "Information inequality for the modelled likelihood. The nonvacuity example computes both expectations of a two-period model in closed form, with a strict inequality."
  },
  {
   "property": "C110",
   "status": "proved",
   "theorems": [
    "C110_simulated_from_likelihood"
   ],
   "note": "The density is the one of C105 and C107 (element_density). The initial draw itself is the mixture of C61; that the map from random numbers to factors and measurements is a shift in each coordinate, given the earlier ones, is what the equality of densities says."
  },
  {
   "property": "C111",
   "status": "proved",
   "theorems": [
    "C111_scale_and_location_absorbed",
    "C111_normalizations_without_loss",
    "C111_stages_kept"
   ],
   "note": "(2) is not claimed for log_ces, whose common exponent ties the scales of all factors together, nor for robust_translog and custom functions. The general CES functions need a nonzero tfp and proper shares (proper_productions). The equality of coefficients within a development stage is kept only for time-constant scales (3): normalizing every period and requiring equal coefficients within stages can be a restriction."
  },
  {
   "property": "C112",
   "status": "proved",
   "theorems": [
    "C112_distplot",
    "C112_contours",
    "C112_layout",
    "C112_surface_layout",
    "C112_surface_titles",
    "C112_grid",
    "C112_surfaces_in_scenes"
   ],
   "note": "Merging of a user scene into a figure is plotly's and not modelled. If the user passes scene, the arguments showgrids, showaxlines and showlabels have no effect, as C112_surface_layout says."
  },
  {
   "property": "C113",
   "status": "proved",
   "theorems": [
    "C113_transition_function",
    "C113_individual_functions",
    "C113_keyword_arguments",
    "C113_callables_take_params",
    "C113_individual_needs_states",
    "C113_reserved_names"
   ],
   "note": "The concatenation of functions by dags and rename_arguments are modelled by contract (values by name, arguments sorted by name); C113_transition_function shows that the coarser model of the transition function used by all other properties is what this graph computes."
  },
  {
   "property": "C114",
   "status": "proved",
   "theorems": [
    "C114_names",
    "C114_accepted",
    "C114_estimable"
   ],
   "note": "The new names must not be confusing (good_names, clear_outcomes, clean_anchoring), as the old ones, and no control or observed factor may be called like the column outcome_factor that anchoring creates (own_columns)."
  },
  {
   "property": "C115",
   "status": "proved",
   "theorems": [
    "C115_relabelled",
    "C115_pooled"
   ],
   "note": "The QR decomposition is assumed to read only the entries that exist (local_qr), as in C43. The sum is over the reals."
  },
  {
   "property": "C116",
   "status": "proved",
   "theorems": [
    "C116_any_order",
    "C116_any_order_of_models",
    "C116_success",
    "C116_success_in_any_order",
    "C116_at_once"
   ],
   "note": "For sequences that remove controls, success does depend on the order (C116_controls_refuted): the section is dropped with the last control and the next call raises KeyError. Names as in good_names; the table has a column value and unique labels."
  },
  {
   "property": "C117",
   "status": "partial",
   "theorems": [
    "C117_reduced_params_meet_constraints_partial",
    "C117_extended_params_meet_constraints",
    "C117_removed_share_refuted",
    "C117_removed_order_refuted"
   ],
   "note": "Partial because the full claim is false if factors are removed: shares of a log_ces function that is left no longer add up to one (C117_removed_share_refuted), and with several mixture components the order is imposed on another factor if the first one is removed (C117_removed_order_refuted). Proved for all reductions with these two exceptions (shares_kept, order_kept), in particular for all sequences that remove no factors."
  },
  {
   "property": "C118",
   "status": "proved",
   "theorems": [
    "C118_reduced_bounds",
    "C118_extended_bounds",
    "C118_values_within_bounds"
   ],
   "note": "Names as in good_names. Together with C117: start values taken from another model are feasible for the new one."
  },
  {
   "property": "C119",
   "status": "proved",
   "theorems": [
    "C119_update_with_own_parts",
    "C119_update_is_recovered"
   ],
   "note": "Values must be complete: reduce_n_periods fills missing values with 0.05, so updating with a part fills them in the table (C119_missing_values_refuted). Names as in good_names."
  }
 ]
}
