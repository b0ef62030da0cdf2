# A machine-checked model of skillmodels in Rocq (Coq 8.16)

The properties are listed in `properties.jsonl`, their formal status in `MANIFEST.json` (written by
`tools/manifest.py`). This file says what is modelled, how, what was found, and what is trusted.
`seeded/LOG.jsonl` lists the edits of the model that were tried to see whether theorems notice them.

## Layout of `rocq/theories`

* **Model files** (definitions only; every definition cites the file and lines in `/repo` it models):

  | file | models |
  |------|--------|
  | `PyBase` | results (exceptions as values), dictionaries, list primitives |
  | `ModelSpec` | typed model dictionaries |
  | `ProcessModel`, `CheckModel` | process_model.py, check_model.py |
  | `ParamsIndex`, `Constraints`, `ParseParams`, `ParamsVec` | params_index.py, constraints.py, parse_params.py, `_get_jnp_params_vec` |
  | `ProcessData` | process_data.py |
  | `Kalman`, `Clipping`, `Likelihood` | kalman_filters.py, clipping.py, likelihood_function.py |
  | `TransitionFunctions` | transition_functions.py, the concatenated transition functions of process_model.py |
  | `DebugData` | process_debug_data.py, filtered_states.py |
  | `Utilities` | utilities.py |
  | `Simulate` | simulate_data.py |
  | `Heatmap` | correlation_heatmap.py |
  | `TransitionPlots` | visualize_transition_equations.py, utils_plotting.py |
  | `DistributionPlots` | visualize_factor_distributions.py |

* **Spec files** `Spec*.v`: what the English words of a property mean, written without the model's helpers.
* **Proof files** `*Facts.v`, `Kalman{Order,Seq}.v`, `GaussIntegral.v`, `RSum.v`, `QRWitness.v`,
  `Likelihood{Run,Local}.v`, `DataArrays.v`, `HeatmapUnits.v`: lemmas.
* **Property files** `Props*.v`: the theorems listed in MANIFEST, each followed by `Print Assumptions`
  and accompanied by an `Example` that shows that a concrete non-trivial case meets its hypotheses.
* `Conformance.v`: fixtures of the package's own test suite, checked against the model by computation.
  These are tests of the model, not theorems about it.

A theorem `..._refuted` proves that a property as stated fails for the model of the code, usually by a
witness; `..._partial` is the part that holds, with the missing part named in its comment and in MANIFEST.

## Modelling decisions

* Python dicts are association lists in insertion order; strings are Coq strings; exceptions are
  values (`Err KeyError` ...). Model dictionaries are typed: values of the wrong Python type are not representable.
* pandas objects are modelled by their content: `update_info` is the list of its rows, a params index is a list
  of 4-tuples, a long data set is a list of rows keyed by (id, period) together with the levels of its MultiIndex.
* Numerical code is modelled over the real numbers of the standard library (`R`), i.e. without rounding,
  overflow or infinities. Missing values are explicit (`option R`); where code computes with NaN or -inf, these are
  arbitrary numbers `nan`, `neg_inf` over which the theorems quantify. Arrays are functions of their indices together
  with explicit dimensions, or lists where flattening and reshaping matter.
* `jnp.linalg.qr` is *any* function that satisfies the definition of a QR decomposition (quantified in the theorems;
  `QRWitness` shows that there is one).
* Random number generators are arbitrary (a record `random G` over which theorems quantify).
* Custom transition functions are arbitrary functions that return a number.
* `jit`, `vmap`, `lax.scan`, `lax.cond` are modelled by their mathematical meaning (identity, map, fold, if).
* Functions of pandas, scipy and plotly are modelled by contract: `corr`, `mean`, `std`, `quantile`, `groupby`,
  `Series.update`, `query`, `reindex`, `make_subplots` by what they compute, `sample`, `gaussian_kde`, `create_distplot`
  as arbitrary functions (that may fail).
* dags (`concatenate_functions`) is modelled by contract: functions are evaluated in the order of their dependencies
  (`Dag`; `TransitionFunctions` is a coarser model that C113 shows to agree with it).

## Not modelled

* How jax computes derivatives (C98 assumes that it computes them correctly), floating point effects, running time and memory.
* What happens after the checks of a specification with values of the wrong type (the checks are in `RawModel`, C102),
  warnings (except the one of `extend_params` and friends, which is a separate boolean), docstrings.
* Data: the columns `__old_id__`, `__old_period__` (they only occur in the text of a warning); ids and periods are
  integers; the order in which pandas sorts unsorted index levels; a data column called `period`.
* Except in `Dag` (C113): factors called `states` or `params` (they collide with arguments in the DAG). Factors called `period` or `purpose`
  (they would confuse queries of `update_info`), negative periods in `anchor_states_df`.
* Simulation: missing keys of a policy; `policies=None` is the empty list; zero observations are an IndexError.
* Heatmap: rounding and formatting are arbitrary functions; the sign of infinite scores; parameters with
  duplicate labels or missing values.
* Plots: colors, cameras, line widths and most of the layout; tuples as orders of factors; the index of tables of
  states; `data=None`; the order of the pairs of factors that goes through a Python set; warnings for failed densities.

## Properties: what is modelled and how it is proved

| id | model | proof |
|----|-------|-------|
| C01-C06 | `ProcessModel`, `CheckModel` | induction over the folds that build the table; refutations by computation on a specification |
| C07-C08 | `ParamsIndex` | membership and NoDup of concatenated comprehensions; injectivity of formatted names |
| C09-C13 | `ParseParams`, `ParamsVec`: positions, gather, scatter, reshape on lists | "position of label in block" by induction |
| C14-C21, C65 | `Constraints`; the meaning of each type of constraint is a predicate on parameter vectors (`SpecConstraints`) | case analysis, induction over comprehensions; C65 is an equivalence with the documented restrictions |
| C22-C29 | `ProcessData` on lists of rows with explicit levels | permutation invariance of sorting and lookup; case analysis of missing patterns |
| C30-C35 | `Kalman.kalman_update` on batches | algebra over finite sums; QR gives R'R = M'M; Sherman-Morrison identities |
| C36-C40 | `Kalman.kalman_predict`, with list-level shapes for the reshape of observed factors | algebra over finite sums |
| C41-C45, C66 | `Likelihood`: schedule from the update table, scan as fold | induction over the update list |
| C46-C47 | `Clipping` | monotonicity of exp and ln |
| C48-C51 | `DebugData` | induction, C41 |
| C52-C56 | `Utilities` | monotonicity of the params index in the specification |
| C57-C59 | `TransitionFunctions` | algebra, exp and ln |
| C60-C62, C67-C69 | `Simulate`, random numbers quantified | induction over periods |
| C63, C72-C80 | `Heatmap` | algebra of correlations; case analysis of masks |
| C70-C71 | `Likelihood` for linear models; densities and iterated improper Riemann integrals (Coquelicot) in `SpecGaussian`, `SpecStateSpace`, `SpecModelDensity` | Gaussian integrals, completing the square, induction over the filter steps |
| C81-C85 | `TransitionPlots` on top of the filter, parsing and transition functions | composition of C09-C12, C48, C57; counting of grid positions |
| C64, C86-C90 | `DistributionPlots` | induction over scenarios and grids; witnesses for the refutations |
| C91 | `Kalman`, `Likelihood` | invariant: both runs keep square roots that agree up to the signs of their rows (uniqueness of triangular square roots of nonsingular matrices) |
| C92 | `Kalman`, `Likelihood`, `ParseParams` | invariant: the second run keeps the means and square roots of the first one, rescaled with the scale and shift of the period; the anchored values agree |
| C93 | Utilities, Likelihood, ParseParams, ProcessData | closed forms of everything the filter is given (ModelInputs.v) show that the inputs of the first equations coincide; the events of the reduced model are a prefix of the events of the full one, and a run over a prefix gives a prefix of the records |
| C94 | Utilities, Likelihood, Kalman, ProcessData | the schedule of the reduced model is the schedule of the full one without equations whose values are missing for everybody; such equations leave the state of the filter unchanged, and the inputs of all other events coincide (Related.v) |
| C95 | Utilities, Likelihood, Kalman, ProcessData | an update only depends on the contribution of all controls together, which is the same sum; all other inputs of the events coincide (Related.v) |
| C96 | Utilities, TransitionFunctions, Likelihood | by C58 the two transition functions coincide if the coefficients of squares and interactions vanish; all other inputs of the filter coincide (Related.v) |
| C97 | ProcessModel, ParseParams, Likelihood, Kalman | runs with permuted factors are related by a permutation of states and covariances, not of Cholesky factors: updates of a period in any order give the batch formula, prediction by C37 for affine functions (FactorOrder.v) |
| C98 | `Maximization` (get_maximization_inputs as a whole), contract of jax.grad and jax.jacrev in `SpecGradient` | changing one row of params changes one entry of the vector; derivative of a finite sum; example computed in closed form |
| C99 | `Likelihood`, `Maximization`; `SpecGradient` (interior, differentiable transitions); `Smooth`, `CholeskySmooth`, `FilterSmooth`, `ModelSmooth` (proofs) | closure of differentiable functions; the Cholesky factor with positive diagonal is a smooth function of a positive definite matrix (induction over Schur complements); the filter's moments depend on the covariances only, which are smooth; induction over updates and periods; labels locate the changed parameter |
| C100 | `SpecMixtures` (same mixture, written differently); `MixtureMap` (runs of the filter) | induction over the events of the run: the beliefs stay the same mixture; logsumexp as logarithm of a sum |
| C101 | `SpecRestrictions` (specifications that differ in restrictions only); `ProcessModel`, `Likelihood`, `DebugData`, `Simulate` | the processed models agree in all components that are read (induction over the factors); equality of the results |
| C102 | `RawModel` (Python values; dimensions, labels, anchoring and checks on them); `SpecRawModel` (problems, right containers, typed specifications as values) | case analysis of the isinstance tests, induction over factors, periods and entries; simulation between the typed and the untyped model; counterexamples for the rest |
| C103 | Kalman.v, Likelihood.v, ParseParams.v, ProcessData.v | filter lemmas in Units.v (scaling the measurement equation scales the innovation, not the gain), induction over the schedule with beliefs equal up to QR signs, inputs by label from both data sets |
| C104 | Kalman.v, Likelihood.v, TransitionFunctions.v | the conditional covariance is the least covariance of a linear prediction error, hence monotone (Precision.v); predictions of affine functions are linear images (C37); induction over the schedule for both data sets |
| C105 | Kalman.v, Likelihood.v, TransitionFunctions.v | next values are polynomials of second degree in deviations from the mean (Quadratic.v); the sigma points are a (signed) distribution with the same first two moments; expectations of such polynomials depend on those moments only |
| C106 | Kalman.v, Likelihood.v, TransitionFunctions.v | as C105 with third moments (symmetric sigma points have none) and, for one factor and scale 2, fourth moments; the refutation computes the five sigma points of two independent factors |
| C107 | Kalman.v, Likelihood.v, ParseParams.v, TransitionFunctions.v | invariant along the schedule: per mixture element, the density of factors and measurements so far is a constant times a normal density with the filter's mean and root (AnchoredRun.v), anchored transitions are affine; the refutation integrates the densities of a two-period model by hand |
| C108 | Kalman.v, Likelihood.v, ParseParams.v, ProcessData.v, TransitionFunctions.v | induction over the schedule from the end: the belief depends on earlier values only, each contribution integrates to one over its own value because the weights sum to one, a missing value contributes one (DensityRun.v) |
| C109 | as C108 | Gibbs inequality: ln r <= r - 1 under the iterated integral, with C108 for both densities; Gaussian moments for the example (NormalMoments.v) |
| C110 | Simulate.v, Likelihood.v, Kalman.v, ParseParams.v, ProcessData.v | the history of C61 in the densities of C107: each factor is its prediction plus the drawn shock, each measurement its prediction plus the drawn noise, and a normal density depends on the difference only |
| C111 | TransitionFunctions.v, Kalman.v, Likelihood.v, ParseParams.v, ParamsIndex.v | the simulation argument of C92 with two transition functions that agree up to the change of scale; the translog form is closed under affine changes of variables (collecting the interaction terms by factor), and so is the general CES form (shifts change the shares); existence by writing down the adapted parameter for each label |
| C112 | PlotOptions.v, DistributionPlots.v | the dictionary update returns the new value or the old one; the default of each key by cases; positions of the scenes from C89 |
| C113 | Dag.v, TransitionFunctions.v | lookup of nodes in the dictionary of functions; evaluation of a node by its arguments; set of inputs of the concatenated function; refinement of the coarser model |
| C114 | ProcessModel.v, ParamsIndex.v, ProcessData.v, ParseParams.v, Likelihood.v, TransitionFunctions.v | the equations of the renamed model are the renamed equations (first appearances under an injective map); block by block the two parameter indices have the same length and corresponding labels; equal inputs of the filter at every event |
| C115 | ProcessData.v, Likelihood.v | the data check of a data set made of individuals of accepted data sets succeeds (by C28); equal contributions by C43; the sum of C42 is a sum over individuals, invariant under permutations |
| C116 | Utilities.v | every call is a componentwise change of the model; changes commute as long as a factor with measurements survives; induction over permutations; tables: every step selects rows, filling is idempotent |
| C117 | Utilities.v, Constraints.v | the documented restrictions (C65) of the reduced model are among those of the model: induction over the sequence of steps for a preorder on specifications; values: every step selects rows (C116); counterexamples by a decision procedure for constraints |
| C118 | Utilities.v, Constraints.v | rows of the new table are rows of the old one or filled with -inf (C116, C53); bounds depend on the label and the options only; new labels of translog models are transition parameters |
| C119 | Utilities.v | rows of parts are rows of the table (C116), updates characterised row by row (C56); success of reductions depends on the index only: induction over the steps |

## Findings

Each is proved by the theorem in parentheses.

* A measurement that is called like an anchoring equation changes the purpose of the equation (C03_refuted).
* `estimation_options` is not optional: KeyError (C06_refuted).
* Dashes in factor names make labels ambiguous (C07_refuted) and put bounds on off-diagonal elements (C18_refuted).
* Anchoring scales and constants are assigned to the wrong factors if outcomes are not listed in the order of the
  factors (C12_refuted, C51_refuted).
* All factors constant with a repeated stage: a constraint that selects nothing (C14_refuted); constant factors with
  bounds or contradictory normalizations of a shared measurement: no parameter satisfies all (C19_refuted...).
* Unused levels of the period index shift periods (C24_refuted). Observed factors are blanked where controls are
  missing (C27_refuted).
* Observed factors with several mixture elements raise an error in the filter (C40_refuted, C40_predict_refuted).
* The transitions of a period without equations are skipped (C41_refuted); such periods also mislabel or crash the
  debug tables (C48_refuted, C48_refuted_crash).
* Soft clipping misses the lower bound (C47_refuted) and makes missing values contribute (C66_refuted).
* Ids in the debug tables are row numbers with several mixture elements (C49_refuted).
* Extending parameters replaces missing values of labels that are not new (C53_refuted).
* A policy already acts in its own period, contrary to the docstring (C62_effect_on_states). Simulation needs the
  measurement columns in the data (C67_measurements_required); missing parameters silently become NaN
  (C69_missing_params_are_nan).
* Quasi scores depend on the sign of loadings (C77_quasi_scores_refuted); the default color range can miss
  correlations (C78_default_bounds_refuted); annotations fail for duplicate labels (C79_annotations_refuted).
* Plots of transitions with the default 50 draws fail for fewer individuals (C83_invalid_arguments).
* `combine_transition_plots` and `combine_distribution_plots` change the mapping of the user in place
  (C85_mapping_changed_refuted, C90_mapping_changed_refuted).
* Contour plots are transposed (C64_contours_refuted); a surface that can not be estimated makes
  `combine_distribution_plots` fail (C89_failed_surface_refuted).
* Distribution plots of observed factors fail for two observed factors or several scenarios, show nothing if periods
  are not labelled 0, 1, ..., and combine different individuals if the data is not sorted (C88_..._refuted).
* An individual with a missing control loses all measurements of the period, even if the control has no effect; removing the control brings them back (C95_missing_controls_matter).
* With nonlinear transition functions the prediction depends on the order in which the latent factors are listed in the model dictionary, because the sigma points are taken along the rows of the upper triangular square root (C97_nonlinear_refuted).
* C98: `loglike` accepts the rows of `params` in any order, but `gradient`, `jacobian` and `loglike_and_gradient` return their entries in the order of `params_template`; with reordered rows entry k is not the derivative with respect to row k (`C98_rows_refuted`). `jacobian` is the derivative of the scalar value, i.e. the gradient again, not the Jacobian of the contributions.
* C99: `robust_translog` has no derivative where a state reaches the bounds of its clipping (`C99_robust_translog_refuted`); automatic differentiation returns some number there. Everything else in the likelihood is differentiable in the interior of the parameter space (`C99_differentiable`), although the QR decompositions it uses are not required to be.
* C102: `controls="age"` is accepted and means the controls `a`, `g` and `e`; the same holds for `observed_factors`. Values of
  normalizations are only compared with 0, so `None` or a string is accepted. `anchoring['anchoring']` is always a bool when it is checked,
  and `outcomes=None`, `measurements=None` and `normalizations=None` raise a TypeError or AttributeError instead of the report.
* **C106**: the unscented prediction is exact in the mean for translog and linear_and_squares production functions (C105), but not in the covariance: sigma points lie on the axes of the Cholesky factor, so interactions of factors contribute nothing to the predicted variance. If a factor becomes the product of two independent factors with variance 1, the filter predicts the variance of the shock only (true: 1 more). With one latent factor the default sigma_points_scale = 2 is exact.
* **C107**: with anchoring, the likelihood is not the joint density of the data under any order of events: the anchoring outcome of a period enters the likelihood with its density given the earlier measurements, but later variables are predicted without it. If outcomes are informative about factors, the value is too small or too large; in the example of C107_refuted it is 1/(2 pi sqrt 6) instead of 1/(2 pi sqrt 5).
* Normalizing loadings and constants in every period is innocuous for linear, squared, translog and general CES production functions only if their coefficients may differ between periods. Development stages (`stagemap`) set coefficients of several periods equal, and the adapted coefficients of C111 need not be equal if the scales or locations change over time, so stages together with period-by-period normalizations can restrict the model (C111_stages_kept: they do not if scale and location are constant).
* A factor called `states` or `params` makes `process_model` or the transition function fail with an error of the graph library, because functions that extract factors are stored under the names of the factors, next to the arguments `states` and `params` (C113_reserved_names). Nothing in the checks rejects these names. A custom function must have an argument `params` (KeyError otherwise), and the function for a single factor, which transition plots call, fails if the custom function of the factor uses no state, because it is called with two positional arguments (C113_callables_take_params, C113_individual_needs_states).
* C116: `remove_controls` drops the section `controls` together with the last control and raises KeyError if there is no such section (utilities.py:160). So removing x2 and then x1 succeeds while removing x1 and then x2 fails if x1 is the only control, and calling it twice with all controls fails, although removing something that is not there is otherwise harmless (`C116_controls_refuted`).
* C117: `remove_factors` (and `extract_factors`) returns parameters that violate the constraints of the reduced model if a factor with log_ces is left, because its shares no longer add up to one, or if there are several mixture components and the first factor is removed, because the components are then ordered by another factor (`C117_removed_share_refuted`, `C117_removed_order_refuted`; utilities.py:93-95, constraints.py:221-275). An optimizer rejects start values that violate fixed or probability constraints.
* C119: `reduce_n_periods` fills missing values of a table with 0.05 although no parameter is new (utilities.py:258-260 calls `_extend_params`, the other reductions call `_reduce_params`). Updating a template with such a part turns its missing values into 0.05 (`C119_missing_values_refuted`).

## Trusted base

* Coq's kernel (8.16.1), checked again by `coqchk`. No axioms are added; no kernel check is switched off.
* Libraries: Coq's standard library; Coquelicot (definitions and lemmas about integrals) for C70, C71 and what
  they use. Coquelicot has no axioms of its own.
* The faithfulness of the model to `/repo`, which was established by reading; see the comment at each definition.
* What `Print Assumptions` lists for each theorem (generated by `tools/assumptions.py`); all are axioms of the standard
  library:

<!-- assumptions -->
* Closed under the global context:
  C01_number_of_periods, C01_padding, C02_rows_of_update_table, C03_anchoring_rows, C03_measurement_rows_partial, C03_refuted, C04_stagemap_validated, C04_stages_without_holes, C05_normalizations_valid, C05_acceptance, C06_optional_sections_partial, C06_no_anchoring, C06_refuted, C07_index_unique_partial, C07_refuted, C08_index_contents, C09_measurement_parameters, C09_parsing_succeeds, C10_initial_distribution, C11_transition_parameters, C12_anchoring_factors_partial, C12_refuted, C13_row_order, C13_errors, C14_constraints_select_parameters_partial, C14_refuted, C15_normalizations_take_effect, C16_stage_constraints, C17_anchoring_restrictions, C18_bounds_partial, C18_refuted, C19_satisfiable_partial, C19_refuted, C19_refuted_shared_measurement, C20_ids, C21_mixture_constraints, C22_balanced_panel, C23_row_order, C24_periods_from_zero_partial, C24_refuted, C25_no_measurement_without_controls, C26_only_incomplete_discarded, C27_observed_factors_complete_partial, C27_refuted, C28_check_exact, C29_arrays_by_label, C29_controls_and_observed_by_label, C52_remove_factors, C52_extract_factors, C52_remove_controls, C52_remove_measurements, C52_switch_translog_to_linear, C53_extended_partial, C53_reduced_periods_partial, C53_zero_periods, C53_refuted, C54_remove_factors, C54_extract_factors, C54_remove_measurements, C54_warning, C54_remove_controls, C54_reduce_n_periods, C54_negative_periods, C55_switch, C55_round_trip, C55_round_trip_params, C56_update_parameter_values, C56_cases, C56_errors, C56_same_index, C65_constraints_are_the_documented_restrictions, C85_layout, C102_report_partial, C102_readable, C102_typed, C102_controls_refuted, C102_values_refuted, C102_crash_refuted, C112_distplot, C112_contours, C112_layout, C112_surface_layout, C112_surface_titles, C114_accepted, C116_any_order, C116_any_order_of_models, C116_success, C116_success_in_any_order, C116_at_once, C117_reduced_params_meet_constraints_partial, C117_extended_params_meet_constraints, C117_removed_share_refuted, C117_removed_order_refuted, C118_reduced_bounds, C118_extended_bounds, C118_values_within_bounds, C119_update_with_own_parts, C119_update_is_recovered.
* `ClassicalDedekindReals.sig_forall_dec`, `FunctionalExtensionality.functional_extensionality_dep`:
  C30_variance_positive, C40_computable_partial, C40_refuted, C50_ranges, C50_ranges_exist, C58_nesting, C63_cells, C63_trimmed, C78_default_bounds_partial, C78_default_bounds_refuted, C78_missing_value, C78_single_variable, C78_two_variables_trimmed, C79_annotations_partial, C80_user_arguments, C84_combined_figure, C84_every_plot_is_shown, C85_mapping_changed_refuted, C85_mapping_kept_partial, C89_combined_partial, C89_failed_surface_refuted, C90_mapping_changed_refuted, C90_mapping_kept_partial, C99_robust_translog_refuted, C112_grid, C112_surfaces_in_scenes.
* `ClassicalDedekindReals.sig_forall_dec`, `ClassicalDedekindReals.sig_not_dec`, `FunctionalExtensionality.functional_extensionality_dep`:
  C36_sigma_points, C37_exact_for_affine, C38_scatter_plus_shocks, C39_anchored_transition, C39_no_anchoring, C40_predict_refuted, C48_refuted, C48_refuted_crash, C49_rows, C49_ids_partial, C49_refuted, C70_integral_unique, C72_measurement_correlations, C72_errors, C72_missing_column, C73_correlation_matrix, C74_quasi_scores, C75_units, C75_units_scores, C75_row_order, C76_scores, C76_scores_exact, C77_quasi_scores_partial, C77_quasi_scores_refuted, C79_annotations_refuted, C97_nonlinear_refuted, C111_stages_kept.
* `ClassicalDedekindReals.sig_forall_dec`, `ClassicalDedekindReals.sig_not_dec`, `Classical_Prop.classic`, `FunctionalExtensionality.functional_extensionality_dep`:
  C13_likelihood_reads_labels, C30_textbook_update, C31_missing_ignored, C31_controls_irrelevant, C32_bayes, C32_normalized, C33_contribution, C34_order_irrelevant, C34_only_the_distribution_matters, C35_individuals_independent, C41_schedule_partial, C41_refuted, C42_sum_of_contributions, C43_individuals_independent, C43_for_the_model_transition, C44_debug_agrees, C45_anchoring_update, C45_states_ignore_outcomes, C46_soft_clipping, C47_both_bounds_partial, C47_refuted, C47_refuted_distinct_bounds, C48_filtered_states_partial, C48_weighted_average, C51_anchored_states_partial, C51_get_filtered_states_partial, C51_refuted, C57_parameters_match_regressors, C57_model_transition, C57_individual_functions, C59_log_ces_is_a_mean, C60_measurement_equation, C60_no_noise, C61_states_follow_model, C61_anchored_states_partial, C62_effect_on_states, C62_effect_on_measurements, C62_ignored_periods, C62_invalid_policies, C66_missing_values_partial, C66_refuted, C67_simulation_succeeds, C67_measurements_required, C68_initial_states, C69_params_by_label, C69_missing_params_are_nan, C69_duplicate_params, C70_likelihood_is_integral, C70_numerical_choices_irrelevant, C71_filtered_is_posterior, C81_fixed_quantiles, C82_average, C83_last_period, C83_invalid_arguments, C64_contours_refuted, C64_contours_partial, C86_univariate_densities, C86_default_states, C87_contours, C87_surfaces, C87_surfaces_need_one_table, C89_plots_of_the_package, C88_univariate_partial, C88_contours_partial, C88_two_observed_factors_refuted, C88_scenarios_refuted, C88_labels_refuted, C88_individuals_refuted, C91_decomposition_irrelevant, C92_anchoring_removes_the_normalization, C93_first_periods, C94_removed_is_missing, C95_removed_controls, C96_switched_likelihood, C97_factor_order_partial, C98_gradient, C98_dictionary, C98_row_order, C98_sum_over_individuals, C98_rows_refuted, C99_differentiable, C99_gradient_entries, C100_same_mixture, C101_restrictions, C103_other_units, C103_same_maximizers, C103_origins_and_signs, C104_more_measurements, C104_values_irrelevant, C105_exact_means, C106_exact_covariances_partial, C106_refuted, C107_anchored_likelihood_partial, C107_refuted, C108_likelihood_is_a_density, C109_truth_maximizes_expected_likelihood, C110_simulated_from_likelihood, C111_scale_and_location_absorbed, C111_normalizations_without_loss, C113_transition_function, C113_individual_functions, C113_keyword_arguments, C113_callables_take_params, C113_individual_needs_states, C113_reserved_names, C114_names, C114_estimable, C115_relabelled, C115_pooled.
<!-- end of assumptions -->
