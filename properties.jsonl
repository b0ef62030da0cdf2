{"id": "C01", "title": "Every latent factor has a measurement list for every period", "statement": "After a model specification is processed, the number of periods is the length of the longest measurement list of any factor, and every factor that is measured in fewer periods behaves exactly as if its list had been padded with empty lists.", "quantifier": "all model specifications", "why_tests_cant": "The space of model specifications is infinite; tests pin a handful of YAML models.", "anchors": ["skillmodels/process_model.py:get_dimensions", "skillmodels/process_model.py:_get_update_info", "skillmodels/process_model.py:fill_list"]}
{"id": "C02", "title": "One measurement equation per period and variable", "statement": "The table of measurement equations contains, for each period and each variable that measures some latent factor in that period (or is that period's anchoring outcome of a factor), exactly one row; it contains no other row; rows are ordered by period; a factor is flagged in a row iff the specification lists the variable as measurement of that factor in that period (or the row is the anchoring equation of that factor).", "quantifier": "all accepted model specifications, all periods, variables and factors", "why_tests_cant": "The space of model specifications is infinite; tests pin a handful of YAML models.", "anchors": ["skillmodels/process_model.py:_get_update_info"]}
{"id": "C03", "title": "Anchoring equations are separated from measurement equations", "statement": "A row of the measurement-equation table has purpose 'anchoring' iff it was created for an anchoring outcome; every measurement listed in the specification keeps purpose 'measurement'. (Fails when a measurement happens to be called '{outcome}_{factor}'.)", "quantifier": "all accepted model specifications", "why_tests_cant": "The space of model specifications is infinite; tests pin a handful of YAML models.", "anchors": ["skillmodels/process_model.py:_get_update_info"]}
{"id": "C04", "title": "Stage maps are validated exactly", "statement": "A stage map is accepted iff it has one entry per transition (n_periods - 1), starts at stage 0 and goes up by zero or one from each period to the next, so the stages are 0..n_stages-1 without holes.", "quantifier": "all integer stage maps and all numbers of periods", "why_tests_cant": "Infinitely many stage maps; a hand-written rejection test only shows some bad maps are rejected.", "anchors": ["skillmodels/check_model.py:check_stagemap"]}
{"id": "C05", "title": "Accepted normalizations refer to existing, non-degenerate parameters", "statement": "If a model is accepted, every normalized loading or intercept refers to a measurement of that factor in that period, no loading is normalized to zero, and every normalization therefore names an entry of the parameter index.", "quantifier": "all accepted model specifications, all normalizations", "why_tests_cant": "The space of model specifications is infinite; tests pin a handful of YAML models.", "anchors": ["skillmodels/check_model.py:_check_normalizations", "skillmodels/check_model.py:_check_normalized_variables_are_present", "skillmodels/constraints.py:_get_normalization_constraints"]}
{"id": "C06", "title": "Optional sections of a model specification are optional", "statement": "All sections of a model specification except 'factors' may be left out, and a left out section behaves like its documented default. (Fails for estimation_options.)", "quantifier": "all model specifications", "why_tests_cant": "The space of model specifications is infinite; tests pin a handful of YAML models.", "anchors": ["skillmodels/process_model.py:get_dimensions", "skillmodels/process_model.py:process_model"]}
{"id": "C07", "title": "Parameter index has no duplicate labels", "statement": "The index of the parameter DataFrame labels every parameter exactly once. (Needs names of latent factors without dashes, and control / parameter names that do not clash; fails otherwise.)", "quantifier": "all accepted model specifications", "why_tests_cant": "The space of model specifications is infinite; tests pin a handful of YAML models.", "anchors": ["skillmodels/params_index.py:get_params_index"]}
{"id": "C08", "title": "Parameter index contains exactly the parameters of the model", "statement": "The parameter index contains a label iff the model has that parameter: a coefficient per (equation, control), a loading per flagged (equation, factor), a measurement sd per equation, a shock sd per (transition, latent factor), initial means per (mixture element, factor), mixture weights, one entry per lower-triangular element of each initial Cholesky factor, and the transition parameters of each (transition, factor); the categories appear as contiguous blocks in that order.", "quantifier": "all accepted model specifications and all labels", "why_tests_cant": "The space of model specifications is infinite; tests pin a handful of YAML models.", "anchors": ["skillmodels/params_index.py:get_params_index"]}
{"id": "C09", "title": "Parameters reach the equation they are labelled for", "statement": "When a flat parameter vector is parsed, the loading used for (equation row, factor) is the entry labelled ('loadings', period, variable, factor), zero if the variable does not measure the factor; coefficients of controls, measurement sds, and shock sds used in each equation are the entries with the corresponding label.", "quantifier": "all accepted models whose parameter labels are unique (C07), all parameter vectors, all equations and factors", "why_tests_cant": "A parsing bug that permutes parameters can cancel out in test models with symmetric structure; only a for-all statement over models excludes it.", "anchors": ["skillmodels/parse_params.py:create_parsing_info", "skillmodels/parse_params.py:parse_params"]}
{"id": "C10", "title": "Initial distribution is read from its labels", "statement": "Initial means, mixture weights and initial Cholesky factors used by the filter are those with the corresponding labels, identical for each individual; the Cholesky factor handed to the filter is the transpose of the lower triangular matrix whose (row, column) entry is labelled '{row factor}-{column factor}', zero above the diagonal.", "quantifier": "all accepted models whose parameter labels are unique (C07), all parameter vectors, all individuals, mixture elements and factors", "why_tests_cant": "Off-by-one errors in triangular indexing depend on the number of factors.", "anchors": ["skillmodels/parse_params.py:_get_initial_states", "skillmodels/parse_params.py:_get_initial_upper_chols", "skillmodels/parse_params.py:_get_initial_log_mixture_weights"]}
{"id": "C11", "title": "Transition parameters are read from their labels", "statement": "The coefficient vector used for the transition of a factor from period t to t+1 lists, in the order of the parameter names of that factor's transition function, the entries labelled ('transition', t, factor, name).", "quantifier": "all accepted models whose parameter labels are unique (C07), all parameter vectors, all factors and transitions", "why_tests_cant": "The space of model specifications is infinite; tests pin a handful of YAML models.", "anchors": ["skillmodels/parse_params.py:_get_transition_params"]}
{"id": "C12", "title": "Anchoring scale and constant belong to the anchored factor", "statement": "In each period the factor that is scaled by the loading (and shifted by the constant) of an anchoring equation is the factor of that equation; all other factors have scale one and constant zero. (Fails if the anchoring outcomes are listed in another order than the factors.)", "quantifier": "all accepted models with anchoring, all parameter vectors", "why_tests_cant": "The tests only use models with a single anchored factor.", "anchors": ["skillmodels/parse_params.py:_get_anchoring_scaling_factors", "skillmodels/parse_params.py:_get_anchoring_constants"]}
{"id": "C13", "title": "Row order of the parameter DataFrame is irrelevant", "statement": "The parameter vector extracted from a user's DataFrame does not depend on the order of its rows; extraction fails with an error iff labels are missing or additional, and otherwise places each value at the position of its label.", "quantifier": "all parameter DataFrames", "why_tests_cant": "Permutations and supersets/subsets of labels cannot be enumerated.", "anchors": ["skillmodels/likelihood_function.py:_get_jnp_params_vec"]}
{"id": "C14", "title": "Constraints refer to existing parameters", "statement": "Every constraint generated for an accepted model selects only labels of the parameter index and selects at least one.", "quantifier": "all accepted models whose anchored factors are latent factors, all constraints", "why_tests_cant": "The space of model specifications is infinite; tests pin a handful of YAML models.", "anchors": ["skillmodels/constraints.py:get_constraints"]}
{"id": "C15", "title": "Fixed normalizations take effect in the measurement equations", "statement": "If a parameter vector satisfies the generated constraints, then in the parsed parameters every normalized loading and every normalized intercept has exactly the normalized value.", "quantifier": "all accepted models whose parameter labels are unique (C07), all parameter vectors satisfying the constraints", "why_tests_cant": "The space of model specifications is infinite; tests pin a handful of YAML models.", "anchors": ["skillmodels/constraints.py:_get_normalization_constraints", "skillmodels/parse_params.py:parse_params"]}
{"id": "C16", "title": "Stage constraints make exactly the periods of a stage equal", "statement": "The generated stage constraints are satisfied by a parameter vector iff, for any two periods of the same development stage, all transition and shock parameters (by name) are equal; no equality is imposed across stages.", "quantifier": "all accepted models, all parameter vectors", "why_tests_cant": "The space of model specifications is infinite; tests pin a handful of YAML models.", "anchors": ["skillmodels/constraints.py:_get_stage_constraints"]}
{"id": "C17", "title": "Anchoring restrictions are the documented ones", "statement": "A parameter vector satisfies the anchoring constraints iff: without free constants all anchoring constants are zero; without free loadings all anchoring loadings are one; without free controls all control coefficients of anchoring equations are zero; and nothing else is restricted.", "quantifier": "all accepted models with anchoring, all parameter vectors", "why_tests_cant": "The space of model specifications is infinite; tests pin a handful of YAML models.", "anchors": ["skillmodels/constraints.py:_get_anchoring_constraints"]}
{"id": "C18", "title": "Bounds apply exactly to standard deviations and diagonal elements", "statement": "Lower bounds are set exactly on measurement sds, shock sds and the diagonal entries of the initial Cholesky factors, all other lower bounds are untouched. (Fails for factor names with dashes.)", "quantifier": "all accepted models", "why_tests_cant": "The space of model specifications is infinite; tests pin a handful of YAML models.", "anchors": ["skillmodels/constraints.py:add_bounds", "skillmodels/constraints.py:_is_diagonal_entry"]}
{"id": "C19", "title": "Bounds and constraints are jointly satisfiable", "statement": "For each accepted model there is a parameter vector that satisfies all generated constraints together with the generated bounds. (Fails for a factor with transition function 'constant' under robust bounds: its shock sd is fixed to 0 while its lower bound is positive.)", "quantifier": "all accepted models", "why_tests_cant": "Tests check constraints and bounds separately.", "anchors": ["skillmodels/constraints.py:get_constraints", "skillmodels/constraints.py:add_bounds"]}
{"id": "C20", "title": "Constraint ids are unique and consecutive", "statement": "The generated constraints carry ids 0, 1, 2, ... in order.", "quantifier": "all accepted models", "why_tests_cant": "The space of model specifications is infinite; tests pin a handful of YAML models.", "anchors": ["skillmodels/constraints.py:get_constraints"]}
{"id": "C21", "title": "Mixture constraints identify the mixture", "statement": "With several mixture elements, a parameter vector satisfies the mixture constraints iff the mixture weights form a probability vector and the initial means of the first factor are increasing over the mixture elements; with one element its weight is fixed to one.", "quantifier": "all accepted models, all parameter vectors", "why_tests_cant": "The space of model specifications is infinite; tests pin a handful of YAML models.", "anchors": ["skillmodels/constraints.py:_get_mixture_weights_constraints", "skillmodels/constraints.py:_get_initial_states_constraints"]}
{"id": "C22", "title": "Preprocessing yields a balanced panel with the original values", "statement": "Whatever observations are present, the preprocessed data set contains exactly one row per individual and model period, in that order; each row holds the values of the input observation of that individual and period, and missing values if there was none.", "quantifier": "all data sets with unique (id, period) pairs and all numbers of periods", "why_tests_cant": "All patterns of unbalancedness and row orders cannot be enumerated.", "anchors": ["skillmodels/process_data.py:pre_process_data"]}
{"id": "C23", "title": "Row order of the data set is irrelevant", "statement": "Permuting the rows of the input data set does not change the arrays used for estimation.", "quantifier": "all data sets and all permutations of rows", "why_tests_cant": "Permutations of arbitrarily large data sets cannot be enumerated.", "anchors": ["skillmodels/process_data.py:pre_process_data", "skillmodels/process_data.py:process_data"]}
{"id": "C24", "title": "Periods are numbered from zero", "statement": "The first period that occurs in the data is treated as model period 0. (Fails when the index carries unused period levels, e.g. after filtering rows of an indexed DataFrame.)", "quantifier": "all data sets", "why_tests_cant": "Depends on hidden state of the index object.", "anchors": ["skillmodels/process_data.py:pre_process_data"]}
{"id": "C25", "title": "No measurement is used with missing controls", "statement": "In the arrays handed to the filter, whenever a measurement is observed, all controls of that individual and period are observed.", "quantifier": "all data sets, individuals, periods and measurements", "why_tests_cant": "Missing patterns cannot be enumerated.", "anchors": ["skillmodels/process_data.py:_handle_controls_with_missings"]}
{"id": "C26", "title": "Only observations with incomplete controls are discarded", "statement": "Handling missing controls changes nothing in rows whose controls are complete or that have no observed measurement in the period, and blanks the entire row otherwise.", "quantifier": "all data sets", "why_tests_cant": "Missing patterns cannot be enumerated.", "anchors": ["skillmodels/process_data.py:_handle_controls_with_missings"]}
{"id": "C27", "title": "Observed factors handed to the filter are never missing", "statement": "If the data check passes, no observed factor handed to the filter is missing. (Fails: blanking rows with incomplete controls also blanks the observed factors.)", "quantifier": "all data sets", "why_tests_cant": "Needs the interaction of two features and a missing pattern absent from the test data.", "anchors": ["skillmodels/process_data.py:process_data", "skillmodels/process_data.py:_handle_controls_with_missings", "skillmodels/process_data.py:_check_data"]}
{"id": "C28", "title": "The data check reports exactly the documented problems", "statement": "Data processing fails iff a needed variable of a period is absent, a non-constant variable has no variation or an observed factor has missings in that period; with the exact classification of each (period, variable) pair.", "quantifier": "all data sets and models", "why_tests_cant": "Infinitely many data sets.", "anchors": ["skillmodels/process_data.py:_check_data"]}
{"id": "C29", "title": "Arrays are filled by label", "statement": "Entry (update, individual) of the measurement array is the value of that update's variable in that update's period for that individual (for anchoring updates: of the outcome variable); entry (period, individual, control) of the control array is that control, with the constant equal to one; likewise for observed factors.", "quantifier": "all data sets and all accepted models whose anchoring outcomes have distinct names for their copies that are no variables themselves", "why_tests_cant": "Infinitely many models and data sets.", "anchors": ["skillmodels/process_data.py:_generate_measurements_array", "skillmodels/process_data.py:_generate_controls_array", "skillmodels/process_data.py:_generate_observed_factor_array", "skillmodels/process_data.py:_add_copies_of_anchoring_outcome"]}
{"id": "C30", "title": "The square-root update computes the textbook Kalman update", "statement": "For every individual and mixture element with an observed measurement, the updated state is the conditional mean and (chol' chol) of the updated factor is the conditional covariance: state + K r, P - K h' P with K = P h / (h' P h + sd^2), whatever QR decomposition is used.", "quantifier": "all dimensions, states, factors with invertible innovation variance, measurements, loadings, sds, and all QR implementations", "why_tests_cant": "Random comparison tests fix dimension and sample a few matrices.", "anchors": ["skillmodels/kalman_filters.py:kalman_update"]}
{"id": "C31", "title": "Missing measurements are ignored", "statement": "If an individual's measurement is missing, its states, Cholesky factors and mixture weights are unchanged by the update and its log likelihood contribution is zero, whatever its controls contain.", "quantifier": "all batches, all missing patterns and all contents of the missing cells", "why_tests_cant": "Missing patterns cannot be enumerated.", "anchors": ["skillmodels/kalman_filters.py:kalman_update"]}
{"id": "C32", "title": "Mixture weights follow Bayes' rule and stay normalized", "statement": "With an observed measurement, updated mixture weights are prior weight times normal density divided by their sum; weights that sum to one keep summing to one after any sequence of updates.", "quantifier": "all numbers of mixture elements, weights and measurements; all update sequences", "why_tests_cant": "Needs induction over update sequences.", "anchors": ["skillmodels/kalman_filters.py:kalman_update"]}
{"id": "C33", "title": "Likelihood contribution is the log of the mixture density", "statement": "The log likelihood contribution of an observed measurement is the logarithm of the weighted sum of the normal densities of the measurement given each mixture element, with mean state'loading + controls'params and variance h'Ph + sd^2; missing ones contribute 0.", "quantifier": "all inputs", "why_tests_cant": "Equality of real functions.", "anchors": ["skillmodels/kalman_filters.py:kalman_update"]}
{"id": "C34", "title": "Order of measurements within a period does not matter", "statement": "Exchanging two consecutive measurement updates of the same period changes neither the resulting state, covariance nor mixture weights nor the total log likelihood contribution.", "quantifier": "all inputs, all missing patterns and, by iteration, all permutations within a period", "why_tests_cant": "Equality of real functions over all permutations.", "anchors": ["skillmodels/kalman_filters.py:kalman_update"]}
{"id": "C35", "title": "Individuals do not influence each other in the update", "statement": "The update of individual i depends only on i's own state, factor, weights, measurement and controls.", "quantifier": "all batches of any size and all pairs of individuals", "why_tests_cant": "Noninterference is a property of pairs of runs.", "anchors": ["skillmodels/kalman_filters.py:kalman_update"]}
{"id": "C36", "title": "Sigma points match mean and covariance", "statement": "The unscented sigma points of each state, with the computed weights (which sum to one), have exactly the state as mean and (chol' chol) as covariance, and carry the observed factors unchanged.", "quantifier": "all dimensions, states, Cholesky factors and scaling parameters with n + kappa > 0", "why_tests_cant": "Equality of real functions in every dimension.", "anchors": ["skillmodels/kalman_filters.py:calculate_sigma_scaling_factor_and_weights", "skillmodels/kalman_filters.py:_calculate_sigma_points"]}
{"id": "C37", "title": "Predict is exact for linear transitions", "statement": "If the transition is linear (affine) then the predicted state is the image of the state and the predicted covariance is A P A' + diag(shock_sds^2), for any QR implementation, any scaling parameter kappa >= 0 and also with anchoring.", "quantifier": "all dimensions, affine transitions, covariances and anchoring parameters with non-zero scaling factors", "why_tests_cant": "Random tests sample a few matrices.", "anchors": ["skillmodels/kalman_filters.py:kalman_predict", "skillmodels/kalman_filters.py:transform_sigma_points"]}
{"id": "C38", "title": "Predicted covariance is the weighted scatter plus shock variance", "statement": "For every transition function and non-negative weights, chol' chol of the predicted factor equals the weighted scatter matrix of the transformed sigma points around their weighted mean plus diag(shock_sds^2); hence it is positive semi-definite and at least as large as the shock variance.", "quantifier": "all transition functions, states, factors; kappa >= 0", "why_tests_cant": "Equality of real functions.", "anchors": ["skillmodels/kalman_filters.py:kalman_predict"]}
{"id": "C39", "title": "Transitions work on anchored factors", "statement": "Transition functions receive, for each latent factor, state * scale_t + constant_t and the result is mapped back with the scale and constant of period t+1; without anchoring (scales one, constants zero) the transition function is applied to the raw states. Observed factors are passed unanchored.", "quantifier": "all inputs", "why_tests_cant": "Equality of real functions.", "anchors": ["skillmodels/kalman_filters.py:transform_sigma_points"]}
{"id": "C40", "title": "Observed factors can be combined with mixtures", "statement": "Sigma points can be computed for every number of mixture elements and observed factors. (Fails: with two or more mixture elements and at least one observed factor the reshape is impossible.)", "quantifier": "all numbers of individuals, mixture elements, latent and observed factors", "why_tests_cant": "Shape errors depend on the combination of two features no test combines.", "anchors": ["skillmodels/kalman_filters.py:_calculate_sigma_points"]}
{"id": "C41", "title": "Filter schedule follows the periods", "statement": "All updates of period t are processed before the transition from t to t+1, exactly one transition with period-t parameters takes place between the updates of consecutive periods, updates of period t use period-t controls, and no transition takes place after the last update. (Fails when a period has no update at all: its transition is silently skipped.)", "quantifier": "all accepted models", "why_tests_cant": "Schedules depend on the model and cannot be enumerated.", "anchors": ["skillmodels/likelihood_function.py:get_maximization_inputs", "skillmodels/likelihood_function.py:_scan_body"]}
{"id": "C42", "title": "Likelihood is the sum of its contributions", "statement": "The log likelihood value equals the sum over individuals of the contributions, which are sums over updates (measurement and anchoring) of that individual's softly clipped update contributions.", "quantifier": "all models, data sets and parameter vectors", "why_tests_cant": "Equality for all inputs.", "anchors": ["skillmodels/likelihood_function.py:_log_likelihood_jax"]}
{"id": "C43", "title": "Individuals do not influence each other in the likelihood", "statement": "An individual's contribution to the log likelihood depends only on that individual's own data.", "quantifier": "all models, data sets and pairs of individuals", "why_tests_cant": "Noninterference is a property of pairs of runs.", "anchors": ["skillmodels/likelihood_function.py:_log_likelihood_jax"]}
{"id": "C44", "title": "Debug and estimation likelihood agree", "statement": "The debug log likelihood reports the same value and contributions as the log likelihood used for estimation.", "quantifier": "all models, data sets and parameter vectors", "why_tests_cant": "Two code paths, all inputs.", "anchors": ["skillmodels/likelihood_function.py:get_maximization_inputs", "skillmodels/likelihood_function.py:_log_likelihood_jax"]}
{"id": "C45", "title": "Anchoring updates leave states and covariances alone", "statement": "An anchoring update changes neither the states nor the Cholesky factors of any individual; it does contribute the density of the anchoring outcome to the likelihood and (with several mixture elements) updates the mixture weights exactly like a measurement update.", "quantifier": "all inputs", "why_tests_cant": "All inputs.", "anchors": ["skillmodels/likelihood_function.py:_scan_body", "skillmodels/likelihood_function.py:_one_arg_anchoring_update"]}
{"id": "C46", "title": "Soft clipping bounds", "statement": "With a lower bound only, soft clipping returns a value above both the argument and the bound, exceeding their maximum by at most log(2)/hardness; it is monotone; symmetric for an upper bound; without bounds it is the identity.", "quantifier": "all reals, all positive hardness values", "why_tests_cant": "All reals.", "anchors": ["skillmodels/clipping.py:soft_clipping"]}
{"id": "C47", "title": "Clipped values respect both bounds", "statement": "With both bounds, the result lies between lower and upper bound. (Fails: the upper clipping can push the value below the lower bound; it misses it by at most log(2)/upper_hardness.)", "quantifier": "all reals and bounds", "why_tests_cant": "All reals.", "anchors": ["skillmodels/clipping.py:soft_clipping"]}
{"id": "C48", "title": "Filtered states are mixture-weighted states at the end of each period", "statement": "The filtered states table contains for each individual and period with measurement updates the mixture-weighted average of the state after the last measurement update of that period, labelled with that period and individual. (Period labels fail if a period without updates precedes.)", "quantifier": "all models, data sets and parameters", "why_tests_cant": "All inputs.", "anchors": ["skillmodels/process_debug_data.py:process_debug_data", "skillmodels/process_debug_data.py:_create_filtered_states"]}
{"id": "C49", "title": "Debug tables identify individuals", "statement": "Rows of the residual and post-update state tables carry the id of the individual they belong to. (Fails with several mixture elements.)", "quantifier": "all numbers of individuals and mixture elements", "why_tests_cant": "All sizes.", "anchors": ["skillmodels/process_debug_data.py:_process_residuals", "skillmodels/process_debug_data.py:_create_post_update_states"]}
{"id": "C50", "title": "State ranges bound the states", "statement": "The state range of a factor in a period contains each state of that factor in that period and is attained.", "quantifier": "all state tables", "why_tests_cant": "All inputs.", "anchors": ["skillmodels/process_debug_data.py:create_state_ranges"]}
{"id": "C51", "title": "Anchoring a state table is the documented affine map", "statement": "anchor_states_df multiplies each latent factor by its period's scale and adds its period's constant if requested; all other columns are unchanged.", "quantifier": "all state tables and parameters", "why_tests_cant": "All inputs.", "anchors": ["skillmodels/filtered_states.py:anchor_states_df"]}
{"id": "C52", "title": "Reduced models have reduced parameter indices", "statement": "For remove_factors, extract_factors, remove_controls, remove_measurements: each parameter of the reduced model is a parameter of the full model, so reducing parameters never fails on a missing label.", "quantifier": "all accepted models and all sets of removed items", "why_tests_cant": "The space of model specifications is infinite; tests pin a handful of YAML models.", "anchors": ["skillmodels/utilities.py:remove_factors", "skillmodels/utilities.py:remove_controls", "skillmodels/utilities.py:remove_measurements", "skillmodels/utilities.py:extract_factors"]}
{"id": "C53", "title": "Reducing and extending parameters preserves values", "statement": "Adjusting a parameter DataFrame to another model keeps the value of every label that both have, yields exactly the target index in its order and fills only new labels with the default.", "quantifier": "all parameter DataFrames and target models", "why_tests_cant": "All inputs.", "anchors": ["skillmodels/utilities.py:_reduce_params", "skillmodels/utilities.py:_extend_params", "skillmodels/utilities.py:reduce_n_periods"]}
{"id": "C54", "title": "Removed items are gone and the rest is unchanged", "statement": "After removing factors, measurements or controls, the reduced specification mentions none of them and everything else is exactly as before and in the same order.", "quantifier": "all models and removed items", "why_tests_cant": "All inputs.", "anchors": ["skillmodels/utilities.py"]}
{"id": "C55", "title": "Switching between linear and translog", "statement": "switch_linear_to_translog turns exactly the linear transitions into translog; switching back restores the original iff it had no translog transition.", "quantifier": "all models", "why_tests_cant": "All inputs.", "anchors": ["skillmodels/utilities.py:switch_linear_to_translog", "skillmodels/utilities.py:switch_translog_to_linear"]}
{"id": "C56", "title": "Updating parameter values", "statement": "update_parameter_values overwrites exactly the labels for which some new value is given, later ones win, and never changes index or other columns.", "quantifier": "all DataFrames and lists of updates", "why_tests_cant": "All inputs.", "anchors": ["skillmodels/utilities.py:update_parameter_values"]}
{"id": "C57", "title": "Transition parameters are matched to their regressors", "statement": "For each implemented transition function, the number of parameters it reads equals the number of its parameter names, and the parameter called after a factor (or factor power, or factor product, or constant) is the coefficient of exactly that regressor. In the transition of a model, the next state of each factor is computed by its own function from the parameters labelled with that factor and period; custom functions get their parameters and the factors by name.", "quantifier": "all factor lists, states and parameters", "why_tests_cant": "All dimensions.", "anchors": ["skillmodels/transition_functions.py"]}
{"id": "C58", "title": "Translog nests linear", "statement": "A translog transition with zero coefficients for squares and interactions equals the linear transition, with zero coefficients for interactions it equals linear_and_squares; robust_translog equals translog as long as no state exceeds 10^12 in absolute value, and otherwise translog at the clipped states.", "quantifier": "all states and parameters", "why_tests_cant": "All inputs.", "anchors": ["skillmodels/transition_functions.py:translog", "skillmodels/transition_functions.py:robust_translog", "skillmodels/transition_functions.py:linear"]}
{"id": "C59", "title": "Log CES is a mean", "statement": "With non-negative gammas that sum to one, log_ces lies between the smallest and largest input, is shift-equivariant in the states, and equals log_ces_general with equal sigmas phi and tfp 1/phi.", "quantifier": "all states and parameters with phi different from 0", "why_tests_cant": "All inputs.", "anchors": ["skillmodels/transition_functions.py:log_ces", "skillmodels/transition_functions.py:log_ces_general"]}
{"id": "C60", "title": "Simulated measurements obey the measurement equations", "statement": "Simulated measurements equal states'loadings + controls'params + sd * noise for each individual, so that with zero sds and matching inputs the filter's residual is zero.", "quantifier": "all inputs and all random draws, for models without factors or measurements called id or period", "why_tests_cant": "All inputs and draws.", "anchors": ["skillmodels/simulate_data.py:measurements_from_states"]}
{"id": "C61", "title": "Simulated states obey the transition equations", "statement": "Simulated states of period t+1 equal the filter's transition of period-t states plus policy shocks plus sd * noise; the same anchoring as in the filter is used.", "quantifier": "all inputs and draws", "why_tests_cant": "All inputs and draws.", "anchors": ["skillmodels/simulate_data.py:_simulate_dataset"]}
{"id": "C62", "title": "Policies affect exactly the requested factor and period", "statement": "A policy with zero standard deviation adds exactly its effect size to the requested factor's state in the requested period (before the transition) and changes no other factor's state in that period and no earlier state; policies whose period is the last one are ignored; a negative standard deviation is an error.", "quantifier": "all lists of policies and all draws", "why_tests_cant": "All inputs and draws.", "anchors": ["skillmodels/simulate_data.py:_simulate_dataset", "skillmodels/simulate_data.py:_get_shock"]}
{"id": "C63", "title": "Correlation heatmap trims exactly the redundant half", "statement": "The mask of the correlation heatmap hides exactly the requested triangle/diagonal, and trimming drops only rows and columns that are hidden entirely.", "quantifier": "all matrix sizes and flag combinations", "why_tests_cant": "All sizes.", "anchors": ["skillmodels/correlation_heatmap.py:_get_mask"]}
{"id": "C64", "title": "Contour plots put the x variable on the x axis", "statement": "Value at grid position (i, j) of the contour trace is the density at x_j, y_i as plotly expects. (Fails: the matrix is transposed.)", "quantifier": "all densities", "why_tests_cant": "All inputs.", "anchors": ["skillmodels/visualize_factor_distributions.py"]}
{"id": "C65", "title": "The constraints restrict exactly what is documented", "statement": "A parameter vector satisfies all generated constraints iff the normalizations, the mixture weight and mean ordering restrictions, the stage equalities, the zero shocks of constant factors, the log_ces share restrictions and the anchoring restrictions hold; nothing else is restricted.", "quantifier": "all accepted models, all parameter vectors", "why_tests_cant": "Tests compare lists of constraints for a handful of models; that the conjunction restricts nothing else is a statement about all parameter vectors.", "anchors": ["skillmodels/constraints.py:get_constraints"]}
{"id": "C66", "title": "Missing values contribute nothing to the likelihood", "statement": "An individual's contribution to the log likelihood is the sum over the equations for which the individual has a value; missing values contribute nothing. (Fails with clipping: the zero that stands for a missing value is clipped as well.)", "quantifier": "all models, data sets with any pattern of missing values, and parameter vectors", "why_tests_cant": "Patterns of missing values and parameters cannot be enumerated.", "anchors": ["skillmodels/likelihood_function.py:_log_likelihood_jax", "skillmodels/kalman_filters.py:kalman_update", "skillmodels/clipping.py:soft_clipping"]}
{"id": "C67", "title": "Simulations succeed exactly for complete inputs", "statement": "For processable data and parameters, simulate_dataset succeeds iff there is at least one individual, every period has a measurement, data are given if the model has controls or observed factors, and all policies whose period has a transition name a latent factor and have no negative standard deviation. Data sets must contain the measurement variables as well, although their values are not used.", "quantifier": "all models, data sets, parameters, policies and random draws", "why_tests_cant": "An exact success condition is a statement about all inputs.", "anchors": ["skillmodels/simulate_data.py:simulate_dataset", "skillmodels/simulate_data.py:_simulate_dataset", "skillmodels/process_data.py:process_data"]}
{"id": "C68", "title": "Simulated initial states come from the estimated initial distribution", "statement": "The states of the first period are drawn from the normal mixture whose weights, means and Cholesky factors are the parameters with the corresponding labels.", "quantifier": "all models, parameters and random draws", "why_tests_cant": "Distributional statement about all parameters and draws; tests fix a seed.", "anchors": ["skillmodels/simulate_data.py:generate_start_states", "skillmodels/simulate_data.py:_simulate_dataset"]}
{"id": "C69", "title": "Simulation reads parameters by label", "statement": "simulate_dataset depends only on the values of the parameters of the model: not on their order, nor on additional parameters. Duplicate labels are rejected. A missing parameter is treated as NaN without an error.", "quantifier": "all models, all orders and supersets of the parameters", "why_tests_cant": "All permutations and supersets.", "anchors": ["skillmodels/simulate_data.py:simulate_dataset"]}
{"id": "C70", "title": "The likelihood of a linear model is the integral over the latent factors", "statement": "For models with linear transition functions, without anchoring, and with at least one measurement in every period, the log likelihood contributions of an individual (as returned by the debug log likelihood; by all likelihood functions if no clipping bound is set) add up to the log of the integral, over the latent factors of all periods, of the joint density that the parameters describe: mixture of normals in the first period, linear transitions with normal shocks, linear measurement equations with controls and normal errors, missing measurements left out. The contributions do not depend on the signs the QR decomposition returns, nor on the sigma point scale.", "quantifier": "all linear models, data sets with any pattern of missing values, parameters with nonzero standard deviations and positive weights, numbers of periods, factors and mixture elements", "why_tests_cant": "Tests compare with one reference implementation on a few random draws; the identity with the integral holds or fails for all parameters and data.", "anchors": ["skillmodels/likelihood_function.py:log_likelihood", "skillmodels/kalman_filters.py:kalman_update", "skillmodels/kalman_filters.py:kalman_predict"]}
{"id": "C71", "title": "Filtered states of a linear model are the exact posterior", "statement": "In the setting of C70, after each measurement equation the reported mixture weights and filtered states are the weights and means of the exact conditional distribution of the latent factors of the period given all measurements processed so far, which is a mixture of normals.", "quantifier": "as in C70, after every measurement equation", "why_tests_cant": "Posterior distributions of all data sets and parameters.", "anchors": ["skillmodels/likelihood_function.py:log_likelihood", "skillmodels/kalman_filters.py:kalman_update", "skillmodels/process_debug_data.py:process_debug_data"]}
{"id": "C72", "title": "Correlations of measurements are those of the data set", "statement": "get_measurements_corr returns, for the chosen factors and periods, a matrix whose labels are the measurements of the latent factors and the observed factors (with the period appended if there are several periods) and whose cells are the Pearson correlations over the individuals for which both variables are known, undefined if one of them does not vary. Duplicate observations are a ValueError, unknown factor names an UnboundLocalError, missing columns and periods without any measurement equation a KeyError (also if the periods are implied by None).", "quantifier": "all accepted models, data sets, lists of factors and periods", "why_tests_cant": "The existing tests compare the intermediate data frame for one data set; the statement is about the labelling and all cells for every model and unbalanced panel.", "anchors": ["skillmodels/correlation_heatmap.py:get_measurements_corr", "skillmodels/correlation_heatmap.py:_get_measurement_data", "skillmodels/process_data.py:pre_process_data"]}
{"id": "C73", "title": "The correlation functions return correlation matrices", "statement": "Whenever get_measurements_corr, get_quasi_scores_corr or get_scores_corr return a matrix, it is square with equal row and column labels, symmetric, its defined cells lie between -1 and 1 and the defined cells on the diagonal are 1.", "quantifier": "all inputs for which the functions succeed", "why_tests_cant": "All data sets, including such with missing values.", "anchors": ["skillmodels/correlation_heatmap.py:get_measurements_corr", "skillmodels/correlation_heatmap.py:get_quasi_scores_corr", "skillmodels/correlation_heatmap.py:get_scores_corr"]}
{"id": "C74", "title": "Quasi scores are averages of standardized measurements", "statement": "get_quasi_scores_corr returns the correlations of the observed factors and of the averages, per individual, of the known measurements of each latent factor in each period after standardization to mean zero and unit standard deviation.", "quantifier": "all accepted models, data sets, lists of factors and periods", "why_tests_cant": "All data sets and models.", "anchors": ["skillmodels/correlation_heatmap.py:get_quasi_scores_corr", "skillmodels/correlation_heatmap.py:_get_quasi_factor_scores_data"]}
{"id": "C75", "title": "Correlations do not depend on units or the order of rows", "statement": "Measuring a variable in other units (a positive scale factor and a shift) changes neither the correlations of measurements nor those of quasi scores, nor those of scores if the loadings and intercepts are expressed in the same units; neither does the order of the rows of the data set.", "quantifier": "all models, data sets, variables, scale factors and shifts, all permutations of rows", "why_tests_cant": "A relation between two runs for all inputs.", "anchors": ["skillmodels/correlation_heatmap.py:get_measurements_corr", "skillmodels/correlation_heatmap.py:get_quasi_scores_corr", "skillmodels/correlation_heatmap.py:get_scores_corr"]}
{"id": "C76", "title": "Scores invert the measurement equations", "statement": "get_scores_corr returns the correlations of the observed factors and of the averages of (measurement - intercept) / loading over the known measurements that load on a single factor. Without measurement error these are the latent factors themselves.", "quantifier": "all accepted models, data sets and parameters whose used loadings are not zero", "why_tests_cant": "All data sets and parameters.", "anchors": ["skillmodels/correlation_heatmap.py:get_scores_corr", "skillmodels/correlation_heatmap.py:_get_factor_scores_data"]}
{"id": "C77", "title": "Quasi scores coincide with factor scores in linear models", "statement": "As documented, the correlations of quasi scores are those of factor scores if the model is linear. (Holds for one measurement per factor with positive loadings; fails for negative loadings.)", "quantifier": "all linear models, data sets and parameters", "why_tests_cant": "A relation between the results of two functions for all inputs.", "anchors": ["skillmodels/correlation_heatmap.py:get_quasi_scores_corr", "skillmodels/correlation_heatmap.py:get_scores_corr"]}
{"id": "C78", "title": "The default color map covers the correlations", "statement": "Without bounds from the user, the color map of the heatmap ends at plus and minus the largest absolute correlation off the diagonal. (Fails if the heatmap is trimmed, for two variables with a trimmed lower triangle, for one variable, and if a correlation is undefined.)", "quantifier": "all correlation matrices and flags", "why_tests_cant": "All matrices.", "anchors": ["skillmodels/correlation_heatmap.py:plot_correlation_heatmap", "skillmodels/correlation_heatmap.py:_get_heatmap_kwargs"]}
{"id": "C79", "title": "Annotations of the heatmap are the values of its cells", "statement": "The annotated heatmap has one annotation per cell, located at the labels of the cell and showing its rounded value, or nothing if the cell is hidden or undefined. (Fails if labels are not unique, e.g. because a measurement is shared by two factors.)", "quantifier": "all correlation matrices and flags", "why_tests_cant": "All matrices and label sets.", "anchors": ["skillmodels/correlation_heatmap.py:_get_annotations", "skillmodels/correlation_heatmap.py:plot_correlation_heatmap"]}
{"id": "C80", "title": "Keyword arguments of the user take precedence in the heatmap", "statement": "Entries of heatmap_kwargs and layout_kwargs appear unchanged in the figure; all other entries have the values of the individual arguments or their documented defaults.", "quantifier": "all arguments for which the figure is produced", "why_tests_cant": "All combinations of keyword arguments.", "anchors": ["skillmodels/correlation_heatmap.py:_get_layout_kwargs", "skillmodels/correlation_heatmap.py:_get_heatmap_kwargs"]}
{"id": "C81", "title": "Transition plots at fixed quantiles", "statement": "get_transition_plots with quantiles returns one plot per pair of input factor (latent or observed) and latent output factor. Each plot has one curve per distinct quantile: n_points equally spaced values of the input factor over its range, and at each the value of the output factor next period if the input factor has this value and all other factors are at the quantile of their values in this period.", "quantifier": "all models, data, parameters, non-terminal periods, lists of quantiles, numbers of points and ranges for which the filter runs", "why_tests_cant": "the number of factors, individuals, quantiles and points is unbounded, and the values are arbitrary reals", "anchors": ["skillmodels/visualize_transition_equations.py:get_transition_plots", "skillmodels/visualize_transition_equations.py:_prepare_data_for_one_plot_fixed_quantile_2d"]}
{"id": "C82", "title": "Transition plots averaged over individuals", "statement": "get_transition_plots without quantiles returns, for each pair of factors, one curve whose value at a grid point is the average over n_draws different individuals of the output factor next period, with the other factors of the individual at their values in this period.", "quantifier": "all models, data, parameters, non-terminal periods, numbers of draws up to the number of individuals and samples without replacement, state ranges with distinct grid points", "why_tests_cant": "depends on the random sample and on the values of all individuals; the number of individuals is unbounded", "anchors": ["skillmodels/visualize_transition_equations.py:get_transition_plots", "skillmodels/visualize_transition_equations.py:_prepare_data_for_one_plot_average_2d"]}
{"id": "C83", "title": "Transition plots need a next period", "statement": "get_transition_plots raises a ValueError for the last period and does not return plots for invalid arguments.", "quantifier": "all models, data and arguments", "why_tests_cant": "must hold for each model with any number of periods", "anchors": ["skillmodels/visualize_transition_equations.py:get_transition_plots"]}
{"id": "C84", "title": "Combined transition plots", "statement": "combine_transition_plots puts the plot of an input and an output factor into the column of the input and the row of the output factor, leaves cells without a plot empty, labels axes with the names of the user, and by default shows every plot exactly once for any number of factors.", "quantifier": "all dictionaries of plots, orders, mappings and numbers of factors", "why_tests_cant": "the number of plots is unbounded, the default spacing of the grid depends on it", "anchors": ["skillmodels/visualize_transition_equations.py:combine_transition_plots", "skillmodels/utils_plotting.py:get_make_subplot_kwargs"]}
{"id": "C85", "title": "Combining plots leaves the arguments alone", "statement": "combine_transition_plots does not change the mapping of displayed names, and options of the user for the layout take precedence over the defaults. (The first part fails: the mapping is extended in place.)", "quantifier": "all dictionaries of plots, mappings and options", "why_tests_cant": "side effects on arguments must be excluded for all mappings", "anchors": ["skillmodels/visualize_transition_equations.py:_process_factor_mapping_trans", "skillmodels/utils_plotting.py:get_layout_kwargs"]}
{"id": "C86", "title": "Distribution plots show the states of the period", "statement": "univariate_densities returns one plot per requested factor. It shows, for each scenario with observations in the period, exactly the values of the factor in that period. If no states are given, the filtered states are used. A plot whose density cannot be estimated is returned as an empty figure and does not affect the others.", "quantifier": "all models, tables of states, scenarios, factors, periods and density estimators", "why_tests_cant": "must hold for any number of scenarios, factors and rows and for failures of the estimator at any plot", "anchors": ["skillmodels/visualize_factor_distributions.py:univariate_densities", "skillmodels/visualize_factor_distributions.py:_process_data"]}
{"id": "C87", "title": "Bivariate plots show each pair of factors", "statement": "bivariate_density_contours and bivariate_density_surfaces return one plot for each ordered pair of different factors. The grid of each plot covers the range of the values of both factors in the period and the heights are the estimated joint density. Surfaces are refused for several scenarios.", "quantifier": "all models, tables of states, factors, periods, numbers of grid points and density estimators", "why_tests_cant": "must hold for any number of factors, scenarios and grid points", "anchors": ["skillmodels/visualize_factor_distributions.py:bivariate_density_contours", "skillmodels/visualize_factor_distributions.py:bivariate_density_surfaces", "skillmodels/visualize_factor_distributions.py:_calculate_kde_for_3d"]}
{"id": "C88", "title": "Distribution plots of observed factors", "statement": "If observed factors are requested, the distribution plots show their values in the period, and bivariate plots combine the values of the same individual. (Fails for two observed factors, for several scenarios, for periods that are not labelled 0, 1, ... and for data that is not sorted by individual.)", "quantifier": "all models, data sets, labels of periods, orders of rows, tables of states and lists of factors", "why_tests_cant": "depends on the labels and the order of rows of arbitrary data", "anchors": ["skillmodels/visualize_factor_distributions.py:_get_data_observed_factors", "skillmodels/visualize_factor_distributions.py:_process_data", "skillmodels/visualize_factor_distributions.py:univariate_densities", "skillmodels/visualize_factor_distributions.py:bivariate_density_contours"]}
{"id": "C89", "title": "Combined distribution plots", "statement": "combine_distribution_plots puts the density of a factor on the diagonal, the contour plot of a pair below and its surface above the diagonal, in the requested order of factors and with the names of the user, for all plots that the package can make. (Fails if a surface could not be estimated: the empty figure makes the call fail.)", "quantifier": "all dictionaries of plots, orders and mappings", "why_tests_cant": "the number of factors is unbounded; any of the plots can be an empty figure", "anchors": ["skillmodels/visualize_factor_distributions.py:combine_distribution_plots", "skillmodels/visualize_factor_distributions.py:_get_ordered_factors"]}
{"id": "C90", "title": "Combining distribution plots leaves the arguments alone", "statement": "combine_distribution_plots does not change the mapping of displayed names that the user passes. (Fails: the mapping is extended in place.)", "quantifier": "all dictionaries of plots and mappings", "why_tests_cant": "side effects on arguments must be excluded for all mappings", "anchors": ["skillmodels/visualize_factor_distributions.py:combine_distribution_plots", "skillmodels/visualize_factor_distributions.py:_process_factor_mapping_dist"]}
{"id": "C91", "title": "The likelihood does not depend on the implementation of the QR decomposition", "statement": "Two correct implementations of the QR decomposition (an upper triangular factor whose Gram matrix is that of the input; neither uniqueness nor signs of the diagonal are assumed) give the same likelihood value, the same contributions and the same debug information - filtered states, residuals, residual standard deviations, mixture weights - for every accepted model, including nonlinear transition equations, anchoring and mixtures, provided no measurement standard deviation and no diagonal of the initial Cholesky factors is zero and every factor that is not constant has a nonzero shock standard deviation.", "quantifier": "all pairs of correct decompositions, accepted models, datasets and nondegenerate parameter vectors", "why_tests_cant": "decompositions differ in sign conventions between backends and library versions; tests run one of them", "anchors": ["skillmodels/kalman_filters.py:array_qr_jax", "skillmodels/kalman_filters.py:kalman_update", "skillmodels/kalman_filters.py:kalman_predict", "skillmodels/likelihood_function.py:log_likelihood"]}
{"id": "C92", "title": "Anchoring makes the likelihood independent of the normalization of the factors", "statement": "Latent factors have no natural scale and location. If the parameters of an anchored model are rewritten for factors that are multiplied by a nonzero number and shifted in each period (loadings divided by the scale, constants and initial means adjusted, initial Cholesky factors and shock standard deviations stretched) while all parameters of the transition functions stay the same, then the likelihood, its contributions, the residuals and the mixture weights do not change, the filtered factors are the original ones on the new scale and their anchored values are identical. Factors may be shifted only if the constants of the anchoring equations are not ignored; factors that are not anchored must keep scale and location. Anchored factors have to be listed in the order of the factors (see C12).", "quantifier": "all accepted models with any transition functions, datasets, nondegenerate parameters, scales and shifts by period and factor", "why_tests_cant": "the claim compares two parameter vectors for infinitely many normalizations and arbitrary transition functions; a test compares a few numbers", "anchors": ["skillmodels/kalman_filters.py:kalman_predict", "skillmodels/kalman_filters.py:transform_sigma_points", "skillmodels/kalman_filters.py:kalman_update", "skillmodels/likelihood_function.py:log_likelihood", "skillmodels/parse_params.py:_get_anchoring_scaling_factors", "skillmodels/parse_params.py:_get_anchoring_constants"]}
{"id": "C93", "title": "Dropping the last periods does not change the first ones", "statement": "If a model is reduced to its first k periods with reduce_n_periods and the remaining parameters keep their values, the likelihood of the reduced model on the same data is the likelihood of the first k periods: its equations are the first equations of the full model, and for each of them the contributions, residuals, filtered states and mixture weights are those of the full model. The reported log likelihood of an individual is the sum of the clipped contributions of these equations in the full model. Nothing the filter computes for a period depends on the parameters or the data of later periods.", "quantifier": "all accepted models (any factors, transition functions, controls, observed factors, stages, mixtures) with conflict-free anchoring, all numbers of kept periods, all data sets and parameters for which both models can be processed, all QR implementations", "why_tests_cant": "A test compares likelihoods for one specification and one cut; the statement covers every model and every cut and rules out any dependence on later periods.", "anchors": ["skillmodels/utilities.py:reduce_n_periods", "skillmodels/likelihood_function.py:_log_likelihood_jax", "skillmodels/kalman_filters.py:kalman_predict", "skillmodels/parse_params.py:parse_params"]}
{"id": "C94", "title": "Removing measurements is the same as never observing them", "statement": "A model from which measurements were removed with remove_measurements, evaluated with the remaining parameters, gives for all remaining equations the contributions, residuals, filtered states and mixture weights that the full model gives on data in which the removed measurements are always missing. The full model's log likelihood of an individual exceeds that of the reduced model by the clipped value of zero for every removed equation, hence by nothing without clipping. This needs at least one remaining equation in every period (see C41) and that no control, observed factor or anchoring equation has a removed name.", "quantifier": "all accepted models with conflict-free anchoring, all sets of removed measurements that leave an equation in every period, all data sets and parameters for which both models can be processed, all QR implementations", "why_tests_cant": "A test compares two likelihoods for one removed measurement; the statement covers every model, every set of measurements and all data, including measurements that load on several factors.", "anchors": ["skillmodels/utilities.py:remove_measurements", "skillmodels/likelihood_function.py:_log_likelihood_jax", "skillmodels/kalman_filters.py:kalman_update", "skillmodels/process_data.py:process_data"]}
{"id": "C95", "title": "Removing controls is the same as setting their coefficients to zero", "statement": "A model from which controls were removed with remove_controls, evaluated on the same data with the remaining parameters, has the log likelihood, the contributions and all debug outputs of the full model with the coefficients of the removed controls set to zero in every equation. Or both evaluations fail with the same error. A removed control may only be missing for an observation that is also discarded because of a remaining control, or that has no measurements: otherwise removing the control lets the observation enter the likelihood.", "quantifier": "all accepted models with conflict-free anchoring, all sets of removed controls (including all of them), all data sets and parameters for which both models can be processed, all QR implementations, with and without debug output", "why_tests_cant": "A test compares two likelihoods for one removed control; the statement covers every model, every set of controls and all data.", "anchors": ["skillmodels/utilities.py:remove_controls", "skillmodels/likelihood_function.py:_log_likelihood_jax", "skillmodels/kalman_filters.py:kalman_update", "skillmodels/process_data.py:process_data"]}
{"id": "C96", "title": "Switching between linear and translog production functions", "statement": "A model and the version of it in which switch_translog_to_linear or switch_linear_to_translog replaced the production functions have the same log likelihood, contributions and debug outputs on every data set, if the coefficients that only the translog version has (squares and interactions) are zero and all other parameters have the same values. The two versions have the same equations, and every parameter of the linear version is one of the translog version under the same label, wherever it is in the parameter vector.", "quantifier": "all accepted models with conflict-free anchoring (any mix of production functions, custom functions included), all data sets and parameters for which both models can be processed, all QR implementations, with and without debug output", "why_tests_cant": "A test compares two likelihoods of one model; the statement covers every mix of production functions, every number of factors and all data.", "anchors": ["skillmodels/utilities.py:switch_translog_to_linear", "skillmodels/utilities.py:switch_linear_to_translog", "skillmodels/transition_functions.py:translog", "skillmodels/transition_functions.py:linear", "skillmodels/likelihood_function.py:_log_likelihood_jax"]}
{"id": "C97", "title": "The order in which latent factors are listed does not matter", "statement": "Two models that list the same latent factors (and anchoring outcomes) in different orders, evaluated on the same data at the same values of all parameters and the same initial covariance matrices, have for every individual and every period the same log likelihood contribution, the same filtered states of each factor and the same mixture weights at the end of each period, and (without clipping bounds) the same log likelihood, although the update order, the parameter index, the Cholesky factors and all arrays differ.", "quantifier": "all models, permutations of their latent factors, data sets, parameter values, QR decompositions of either run, individuals, periods and mixture elements; proved for models whose factors follow linear or constant transition functions", "why_tests_cant": "Tests compare at most one model with itself; a dependence on the position of a factor (a mask, an index or a Cholesky factor used with the wrong order) shows up only when two orders of the same model are compared for all models and data.", "anchors": ["skillmodels/process_model.py:_get_update_info", "skillmodels/parse_params.py:_get_initial_upper_chols", "skillmodels/kalman_filters.py:kalman_predict", "skillmodels/kalman_filters.py:kalman_update"]}
{"id": "C98", "title": "The gradient is the vector of partial derivatives in the order of the params template", "statement": "Every entry of what gradient, jacobian and loglike_and_gradient return for a params DataFrame is the partial derivative of the value that loglike reports with respect to the parameter in the same row of params_template, whatever the order of the rows that are passed; there is one entry per row of the template; loglike_and_gradient returns the same numbers as loglike and gradient; the gradient is the sum of the derivatives of the individual contributions; all of them fail exactly when loglike fails, with the same error.", "quantifier": "all models, data sets, params DataFrames (any order of rows), parameters at which the log likelihood has a partial derivative, and all correct implementations of automatic differentiation and of the QR decomposition", "why_tests_cant": "Tests compare the gradient with numerical derivatives for one model, one data set, one parameter vector and one order of the rows.", "anchors": ["skillmodels/likelihood_function.py:get_maximization_inputs", "skillmodels/likelihood_function.py:_get_jnp_params_vec", "skillmodels/likelihood_function.py:_log_likelihood_jax"]}
{"id": "C99", "title": "The log likelihood is differentiable in the interior of the parameter space", "statement": "At a params DataFrame for which loglike succeeds, with nonzero measurement standard deviations, nonzero diagonal elements of the initial Cholesky factors, positive mixture weights, nonzero shock standard deviations (except for constant factors), nonzero anchoring loadings and positive CES shares with a nonzero substitution parameter, the value and each individual's contribution have a partial derivative with respect to every parameter; loglike succeeds for every value of that parameter; hence every entry of gradient and jacobian is the partial derivative, and an optimizer that uses them gets true derivatives. Transition functions are all documented ones except robust_translog, and custom ones that are differentiable themselves.", "quantifier": "all models (any number of factors, periods, mixture elements, measurements, controls, stages, linear and nonlinear transition functions), data sets including missing measurements, parameters in the interior, every parameter, every individual, every correct implementation of QR and of automatic differentiation", "why_tests_cant": "Tests compare derivatives numerically at one point of one model; existence of a derivative at every interior point is a statement about a limit at uncountably many points and for all models.", "anchors": ["skillmodels/likelihood_function.py:get_maximization_inputs", "skillmodels/likelihood_function.py:_log_likelihood_jax", "skillmodels/kalman_filters.py:kalman_update", "skillmodels/kalman_filters.py:kalman_predict", "skillmodels/clipping.py:soft_clipping", "skillmodels/transition_functions.py"]}
{"id": "C100", "title": "Elements of the initial mixture can be renumbered and equal elements merged", "statement": "Renumbering the elements of the initial mixture distribution together with their parameters, or replacing elements with the same mean and covariance by one with the sum of their weights, changes neither the likelihood nor any contribution, and the distribution of the filtered states after every update is the same mixture; estimates are therefore only identified up to the numbering of the elements. The only exception are models with observed factors, which can only be evaluated with one element.", "quantifier": "every valid model, data set, numbers of elements, assignment of the elements of one mixture to those of the other, and parameter vectors with positive weights describing the same mixture", "why_tests_cant": "a test compares one renumbering for one model and data set; the claim is about all assignments, all numbers of elements and all nonlinear models", "anchors": ["skillmodels/likelihood_function.py:log_likelihood", "skillmodels/kalman_filters.py:kalman_update", "skillmodels/kalman_filters.py:kalman_predict", "skillmodels/parse_params.py:_get_initial_states", "skillmodels/parse_params.py:_get_initial_log_mixture_weights"]}
{"id": "C101", "title": "Restrictions on the parameters act only through the constraints", "statement": "Normalizations of loadings and intercepts, the stagemap, free_controls, free_constant and free_loadings in the anchoring specification and robust_bounds and bounds_distance do not affect the index of the parameters, the log likelihood, its debug output, the filtered states or simulated data sets as functions of data and params: two accepted specifications which differ only in them give the same results and the same errors for every params DataFrame.", "quantifier": "every pair of accepted model specifications which differ only in these entries, all data sets, parameter vectors, policies and random number generators", "why_tests_cant": "a test compares two specifications at some parameters; that an entry is never read on any path, for any data and parameters, is a statement about all executions", "anchors": ["skillmodels/process_model.py:process_model", "skillmodels/likelihood_function.py:get_maximization_inputs", "skillmodels/parse_params.py:create_parsing_info", "skillmodels/simulate_data.py:simulate_dataset", "skillmodels/filtered_states.py:get_filtered_states"]}
{"id": "C102", "title": "Model specifications with values of the wrong type are rejected with a complete report", "statement": "process_model accepts or rejects model specifications whose entries may be any Python values. If the specification is rejected with a report, the report lists exactly the problems: stages that are not consecutive, anchoring outcomes that are not a dictionary of column names, flags that are not booleans, measurements that are not lists of lists of column names, normalizations that are not lists of dictionaries, normalized variables that are not measured and loadings normalized to zero (also to 0.0 or False). A specification with any problem raises a ValueError; one without is accepted. Specifications whose containers have the documented types never crash while they are checked, and for specifications of the documented types the result is that of the typed model. Values of the wrong type are never silently used.", "quantifier": "every model specification with entries of arbitrary Python types", "why_tests_cant": "there are unboundedly many wrong specifications; a completeness claim about a report cannot be tested with a few of them", "anchors": ["skillmodels/process_model.py:process_model", "skillmodels/process_model.py:get_dimensions", "skillmodels/check_model.py:check_model", "skillmodels/check_model.py:_check_anchoring", "skillmodels/check_model.py:_check_measurements", "skillmodels/check_model.py:_check_normalizations", "skillmodels/check_model.py:_is_list_of"]}
{"id": "C103", "title": "The likelihood does not depend on the units of measurements and controls", "statement": "If every measurement is recorded in another unit and from another origin (z becomes b z + a, per variable and period, b not zero, also negative) and every control likewise, and the loadings, standard deviations, control coefficients and constants of the measurement equations are converted accordingly, then every contribution of an observed variable changes by -log|b|, contributions of variables that are missing or discarded stay zero, and estimated factors, mixture weights and initial distributions are the same; residuals are multiplied by b and their standard deviations by |b|. Without clipping, the log likelihood therefore changes by a number that does not depend on the parameters, so the maximizers correspond to each other. If only origins and signs change, the likelihood is the same even with clipping. The units of the anchoring outcomes must be kept, because the anchored factors are measured in them.", "quantifier": "all models (any transition functions, anchoring, observed factors, mixtures), data sets with any pattern of missing values, units per variable and period, parameters that are not degenerate, correct QR decompositions", "why_tests_cant": "A test converts one data set with one factor; the claim is about every combination of units, missing values, anchoring and mixtures, and about the whole likelihood function of the parameters.", "anchors": ["skillmodels/kalman_filters.py:kalman_update", "skillmodels/likelihood_function.py:log_likelihood", "skillmodels/parse_params.py:parse_params", "skillmodels/process_data.py:process_data"]}
{"id": "C104", "title": "In linear models, more measurements make predictions more precise, whatever their values", "statement": "In a model in which every factor is constant or has a linear production function, the standard deviations of the prediction errors in the debug output depend only on the parameters and on which measurements are used, not on any value in the data. If a data set of the same individuals uses at least the measurements that another one uses, all reported standard deviations of prediction errors are at most as large, and they are never smaller than the absolute value of the standard deviation of the measurement. No standard deviation is reported for measurements that are missing or discarded.", "quantifier": "all models with linear or constant production functions (with anchoring, observed factors, controls, mixtures), all pairs of data sets of the same individuals with any values and any patterns of missing values, parameters with non zero standard deviations of measurements and non zero loadings of anchoring equations, correct QR decompositions", "why_tests_cant": "The claim compares two runs of the whole filter for arbitrary data and parameters: it is an ordering of covariance matrices that has to survive every update and every prediction step.", "anchors": ["skillmodels/kalman_filters.py:kalman_update", "skillmodels/kalman_filters.py:kalman_predict", "skillmodels/likelihood_function.py:log_likelihood", "skillmodels/transition_functions.py:linear"]}
{"id": "C105", "title": "Predicted means are exact for linear, constant, translog and linear_and_squares production functions", "statement": "When the filter moves from one period to the next, the predicted mean of a factor with a linear, constant, translog or linear_and_squares production function is, in each mixture element, the expectation of the factor's documented next value (anchored with the parameters of the current period, unanchored with those of the next) under every distribution of the current factors that has the mean and covariance the filter holds. It does not depend on the sigma_points_scale. The mixture weights do not change.", "quantifier": "all models (with any production functions for the other factors, anchoring, observed factors, mixtures), parameters, data, periods, individuals, mixture elements, states of the filter, and all distributions with the given mean and covariance", "why_tests_cant": "The claim is about every distribution with given moments and every polynomial of second degree in any number of factors; a test can only compare with simulated means for a few of them.", "anchors": ["skillmodels/kalman_filters.py:kalman_predict", "skillmodels/kalman_filters.py:calculate_sigma_scaling_factor_and_weights", "skillmodels/kalman_filters.py:_calculate_sigma_points", "skillmodels/kalman_filters.py:transform_sigma_points", "skillmodels/transition_functions.py:translog", "skillmodels/transition_functions.py:linear_and_squares"]}
{"id": "C106", "title": "Predicted covariances are exact for linear, constant, translog and linear_and_squares production functions", "statement": "When the filter moves from one period to the next, the predicted covariance of two factors with linear, constant, translog or linear_and_squares production functions is the covariance of their documented next values, plus the variance of the shock on the diagonal, if the current factors are normal with the mean and covariance the filter holds.", "quantifier": "all models, parameters, data, periods, individuals, mixture elements, states of the filter, sigma_points_scale >= 0, and all distributions with the given mean and covariance and the higher moments of a normal distribution", "why_tests_cant": "The claim is about fourth moments of arbitrary polynomials of the factors; it fails silently (the filter reports a too small variance) and no test of given numbers shows for which production functions it holds.", "anchors": ["skillmodels/kalman_filters.py:kalman_predict", "skillmodels/kalman_filters.py:calculate_sigma_scaling_factor_and_weights", "skillmodels/kalman_filters.py:_calculate_sigma_points", "skillmodels/kalman_filters.py:transform_sigma_points", "skillmodels/transition_functions.py:translog", "skillmodels/transition_functions.py:linear_and_squares"]}
{"id": "C107", "title": "The likelihood of linear models with anchoring is the joint density of measurements and anchoring outcomes", "statement": "For models in which all production functions are linear (with or without anchoring, observed factors, controls and mixtures of normals), the exponential of an individual's likelihood contribution is the joint density of that individual's measurements and anchoring outcomes, with the factors integrated out.", "quantifier": "all linear models, anchored parameters with non-zero anchoring loadings, data sets with any pattern of missing values, individuals and numbers of mixture elements", "why_tests_cant": "The claim is about an integral over all factors of all periods for every model and data set; tests compare numbers of a few models and cannot tell which density the numbers are values of.", "anchors": ["skillmodels/likelihood_function.py:_log_likelihood_jax", "skillmodels/likelihood_function.py:_one_arg_anchoring_update", "skillmodels/kalman_filters.py:kalman_update", "skillmodels/kalman_filters.py:kalman_predict", "skillmodels/kalman_filters.py:transform_sigma_points", "skillmodels/parse_params.py:_get_anchoring_scaling_factors"]}
{"id": "C108", "title": "The likelihood of an individual is a probability density of its observed values", "statement": "For every model, whatever its production functions, the exponential of an individual's (unclipped) log likelihood, as a function of the values of the observed measurements and anchoring outcomes and with all other data fixed, is positive and integrates to one over all values, whichever values are missing. Controls and observed factors are the same in all data sets, no data column enters two equations of a period, mixture weights are positive and sum to one and measurement standard deviations are positive.", "quantifier": "all accepted models (any built-in or custom production functions, anchoring, controls, observed factors, number of mixture elements), parameter vectors, data sets, individuals and patterns of missing values", "why_tests_cant": "The claim is about an integral over all values of all observed variables; a test can evaluate the likelihood at finitely many data sets only and a wrong normalization does not change the maximizing parameters in general.", "anchors": ["skillmodels/likelihood_function.py:_log_likelihood_jax", "skillmodels/kalman_filters.py:kalman_update", "skillmodels/kalman_filters.py:kalman_predict", "skillmodels/likelihood_function.py:_scan_body"]}
{"id": "C109", "title": "No parameter vector has a larger expected log likelihood than the true one", "statement": "If the observed values of an individual are drawn from the density of one model and parameter vector (in the sense of C108), the expected log likelihood of that parameter vector is at least the expected log likelihood of any other parameter vector and of any other model with the same measurement equations, provided that both expectations exist.", "quantifier": "all pairs of models with the same equations, pairs of parameter vectors, data sets, individuals and patterns of missing values", "why_tests_cant": "It compares expectations over all possible data of all pairs of parameter vectors; simulation studies look at a few parameter vectors with sampling error.", "anchors": ["skillmodels/likelihood_function.py:_log_likelihood_jax", "skillmodels/kalman_filters.py:kalman_update"]}
{"id": "C110", "title": "Simulated data are drawn from the density that the likelihood integrates", "statement": "Simulate a model with linear production functions (with or without anchoring) without policies and use the simulated measurements, or any part of them, as data for the likelihood with the same parameters. Then, for every individual, the joint density of factors and measurements that the likelihood integrates over the factors, evaluated at the simulated factors, is the product of the densities of the random numbers the simulator has drawn for this individual: the initial factors, the shocks to each factor in each period and the noise in each measurement, drawn with exactly the standard deviations of those densities.", "quantifier": "all accepted models with linear production functions, parameters in any order, data sets with controls and observed factors or none, numbers of individuals, random number generators, individuals, mixture elements, periods, subsets of the measurements and patterns of missing values", "why_tests_cant": "Simulator and likelihood are separate code; a test compares sample moments of simulated data with the model up to sampling error and for a few models, and cannot see a shock that enters on the wrong scale or in the wrong period for some model.", "anchors": ["skillmodels/simulate_data.py:simulate_dataset", "skillmodels/simulate_data.py:_simulate_dataset", "skillmodels/simulate_data.py:measurements_from_states", "skillmodels/likelihood_function.py:_log_likelihood_jax", "skillmodels/kalman_filters.py:kalman_predict"]}
{"id": "C111", "title": "Normalizing a loading and a constant per factor and period is without loss of generality", "statement": "The latent factors have no natural scale and location. Take a model without anchoring. (1) Measure each latent factor in each period on another scale and from another origin (constant factors: the same in all periods). If the coefficients of linear, linear_and_squares, translog and log_ces_general production functions (and of log_ces functions whose factors are all on the same scale), the loadings, the constants, the shock standard deviations and the initial distribution are adapted accordingly, the likelihood and all its contributions are the same and the filtered factors are the original ones on the new scale. (2) If all factors have linear, linear_and_squares, translog or log_ces_general production functions or are constant over time, and every factor has, in each period (constant factors: in the first), a measurement with a positive loading that measures no other factor, then for every parameter vector there is one in which these measurements have loading 1 and constant 0, with the same zero loadings, signs of standard deviations, mixture weights and order of initial means, that gives the same likelihood for every data set. (3) Coefficients that are the same in two periods stay the same if scale and origin are the same in these periods.", "quantifier": "all accepted models of this kind, numbers of factors, observed factors, periods and mixture elements, parameter vectors, choices of the normalized measurements, scales and shifts, data sets with any pattern of missing values, QR routines that return a decomposition, debug flag", "why_tests_cant": "Estimates are computed under one normalization and read as if it were innocuous. A test can compare two normalizations for one model and one data set; that no information is lost is a statement about all parameter vectors and all data.", "anchors": ["skillmodels/transition_functions.py:translog", "skillmodels/transition_functions.py:linear", "skillmodels/transition_functions.py:linear_and_squares", "skillmodels/kalman_filters.py:kalman_predict", "skillmodels/constraints.py:_get_normalization_constraints", "skillmodels/constraints.py:_get_stage_constraints", "skillmodels/transition_functions.py:log_ces_general"]}
{"id": "C112", "title": "Plot options of the user replace the defaults, everything else keeps its default", "statement": "For density, contour and surface plots and for the grids of combined figures: every option that the user passes in the dictionaries distplot_kwargs, contour_kwargs, layout_kwargs or make_subplot_kwargs reaches plotly unchanged and replaces the default of the same name as a whole. Every other option has its default, which is given by the other arguments: a missing contour coloring becomes 'none'; the three axes of a surface plot show grids and lines as asked and are named after the two factors unless labels are switched off; the grid has a row for each row factor, a column for each column factor and the documented spacing. Passing None and passing an empty dictionary are the same. In a combined figure of distributions, subplots are prepared for three-dimensional plots exactly where surfaces are put. A grid without columns and an unknown palette are errors.", "quantifier": "all dictionaries of user options with unique keys, values of the other arguments, palettes, numbers of rows and columns, figures and factor orders", "why_tests_cant": "Tests look at single options. That no user option is lost or combined with a default, and that the types of the subplots fit the plots for every number of factors, are statements about all dictionaries and grids.", "anchors": ["skillmodels/visualize_factor_distributions.py:_process_distplot_kwargs", "skillmodels/visualize_factor_distributions.py:_process_contour_kwargs", "skillmodels/visualize_factor_distributions.py:_process_layout_kwargs", "skillmodels/visualize_factor_distributions.py:_process_layout_kwargs_3d", "skillmodels/utils_plotting.py:get_make_subplot_kwargs"]}
{"id": "C113", "title": "Custom production functions are called with what they name", "statement": "A custom production function gets, under params, a dictionary from its registered parameter names to the parameters of its factor, under states the vector of all states, and under the name of a factor the state of that factor, and its result is the next state of its factor; the function list of the model (wrappers, renamed arguments, graph of functions) computes for every factor exactly its production function, jointly and for single factors. This holds for any number of factors and any mixture of implemented and custom functions, if factors are not called params, states or __next_factor__ and custom functions take params and at least one state. A factor called params or states, a custom function without params, and a plot of a factor whose custom function takes no state are errors.", "quantifier": "all models, numbers and names of latent and observed factors, signatures and behaviours of custom functions (also functions that raise), parameter values, states", "why_tests_cant": "The arguments of functions are matched by name through a graph. That no combination of names, signatures and functions mixes up arguments is a statement about all graphs that models can create; tests contain a few signatures.", "anchors": ["skillmodels/process_model.py:_get_transition_info", "skillmodels/process_model.py:_extract_factor", "skillmodels/decorators.py:extract_params", "skillmodels/decorators.py:jax_array_output", "skillmodels/decorators.py:register_params"]}
{"id": "C114", "title": "Names are only names", "statement": "If every factor, measurement, control and anchoring outcome of a model gets a new name, different things different names, and the columns of the data set are renamed in the same way, then the renamed model is accepted exactly if the model is, it can be estimated with the renamed data whenever the model can be estimated with the data, and the log likelihood of every parameter vector is the same number, with the same debug outputs: position by position, the parameters keep their meaning.", "quantifier": "all models, injective renamings that keep the name of the constant, data sets, parameter vectors, numbers of factors, periods, mixtures and observations, custom transition functions that follow the renaming, debug modes", "why_tests_cant": "Names decide about positions everywhere: in the order of equations, the positions of parameters, the columns of the data, the arguments of transition functions and the copies of outcomes. That no choice of names changes the number reported for a parameter vector is a statement about all models and all renamings; a test has one set of names.", "anchors": ["skillmodels/process_model.py:process_model", "skillmodels/params_index.py:get_params_index", "skillmodels/process_data.py:process_data", "skillmodels/parse_params.py:parse_params", "skillmodels/likelihood_function.py:_log_likelihood_jax"]}
{"id": "C115", "title": "Identifiers are only labels and pooled data add up", "statement": "If the individuals of a data set get other identifiers, in any order, and the periods other labels in the same order, then the data set is still accepted, the log likelihood of every parameter vector is the same and every individual contributes the same under its new identifier. Two accepted data sets with the same columns and periods and different individuals can be pooled: the pooled data set is accepted, its log likelihood is the sum of the two log likelihoods and every individual contributes what it contributed before.", "quantifier": "all models, accepted data sets, injective maps of identifiers, increasing maps of periods, pairs of data sets with disjoint individuals, parameter vectors, custom transition functions, debug modes", "why_tests_cant": "The data are sorted by identifier, made balanced, turned into arrays by position and summed over positions. That neither the identifiers nor the company of an individual matters is a statement about all data sets and all maps of identifiers; a test compares two data sets.", "anchors": ["skillmodels/process_data.py:process_data", "skillmodels/process_data.py:pre_process_data", "skillmodels/process_data.py:_check_data", "skillmodels/likelihood_function.py:_log_likelihood_jax"]}
{"id": "C116", "title": "Models can be reduced step by step in any order", "statement": "Removing factors, measurements and controls, reducing the number of periods and switching translog functions to linear can be combined in any order: two sequences of the same calls that succeed, each call working on the model and table of parameters returned by the one before, return the same model and the same table. Two calls of the same kind, one after the other, return what one call that asks for both returns. A sequence that does not remove controls succeeds exactly if a factor with measurements is left and anchoring, if factors are removed, has outcomes; so whether it succeeds does not depend on the order.", "quantifier": "all accepted models, tables of parameters that cover the model, finite sequences of reductions with any arguments (positive numbers of periods), permutations of the sequences", "why_tests_cant": "Each call recomputes the number of periods, drops empty sections, shortens lists and selects rows by a new index; that the composition does not depend on the order is a statement about all models and all sequences of calls. Tests apply single calls to one model.", "anchors": ["skillmodels/utilities.py:remove_factors", "skillmodels/utilities.py:remove_measurements", "skillmodels/utilities.py:remove_controls", "skillmodels/utilities.py:reduce_n_periods", "skillmodels/utilities.py:switch_translog_to_linear", "skillmodels/utilities.py:_reduce_params"]}
{"id": "C117", "title": "Parameters of reduced models meet the constraints of the reduced models", "statement": "If the values of a table of parameters satisfy all constraints generated for a model, then the table returned by any sequence of reductions (removing factors, measurements, controls, periods, switching translog to linear) holds the same values and they satisfy all constraints generated for the reduced model. Likewise the table returned when linear functions are switched to translog satisfies the constraints of the larger model; its new parameters have the value 0.05. So start values obtained from a larger or smaller model can be passed to the optimizer together with the constraints of the new model.", "quantifier": "all accepted models, tables of parameters that cover the model, values that satisfy its constraints, finite sequences of reductions with any arguments (positive numbers of periods) that succeed", "why_tests_cant": "Constraints are regenerated from the reduced specification: normalizations, stages, mixture order, shares and anchoring restrictions each depend on several sections of the specification, and the index they select from changes. Tests check the reduced index of one model and never the constraints.", "anchors": ["skillmodels/utilities.py:remove_factors", "skillmodels/utilities.py:reduce_n_periods", "skillmodels/utilities.py:_reduce_params", "skillmodels/utilities.py:_extend_params", "skillmodels/constraints.py:get_constraints"]}
{"id": "C118", "title": "Reduced and extended tables have the bounds of the new model", "statement": "If a table of parameters has the rows and the lower bounds of the params template of a model, then the table returned by any sequence of reductions has the rows of the params template of the reduced model, in its order, and its lower bounds; so does the table returned when linear functions are switched to translog. Values that are within the bounds of the model are within the bounds of any reduced model.", "quantifier": "all accepted models, tables with the rows and lower bounds of the params template and any values and further columns, finite sequences of reductions with any arguments (positive numbers of periods) that succeed, all parameter values", "why_tests_cant": "The bounds of the new template are found by looking at categories and the two halves of each label of a new index, those of the table are carried over or filled; that both agree in every row is a statement about all models and all sequences of calls. Tests look at the values of a few rows only.", "anchors": ["skillmodels/utilities.py:_reduce_params", "skillmodels/utilities.py:_extend_params", "skillmodels/utilities.py:switch_linear_to_translog", "skillmodels/constraints.py:add_bounds", "skillmodels/likelihood_function.py:params_template"]}
{"id": "C119", "title": "Parameters move between a model and its parts without loss", "statement": "Updating a table of parameters without missing values with tables that were obtained from it by any reductions changes nothing. Conversely, if the table is updated with complete values for all parameters of a reduced model, for example estimates, then applying the same reductions to the updated table succeeds and returns exactly these values. So models can be estimated in parts, and the parts put together and taken apart again.", "quantifier": "all accepted models, tables of parameters that cover the model, finite sequences of reductions with any arguments (positive numbers of periods), any number of parts, all complete tables for the reduced model", "why_tests_cant": "Reduction selects rows by an index of the new model and the update aligns rows by labels and skips missing values; that one undoes the other is an algebraic law over all models, tables and sequences of calls. Tests update a table of a few rows.", "anchors": ["skillmodels/utilities.py:update_parameter_values", "skillmodels/utilities.py:_reduce_params", "skillmodels/utilities.py:_extend_params", "skillmodels/utilities.py:remove_factors", "skillmodels/utilities.py:reduce_n_periods"]}
