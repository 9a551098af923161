{"id": "C01", "title": "History returns exactly the parameter vectors that were added", "statement": "After any sequence of add_xs / add_evals calls, get_xs(i) returns, unchanged, the i-th parameter vector ever added, get_n_xs() is the number of vectors added so far, and every add_xs call returns the fresh consecutive indices n..n+k-1 of the k vectors it added (the single index n for a 1d argument, the empty list for an empty argument).", "quantifier": "all finite sequences of successful add_xs/add_evals calls, of any batch sizes, hence across arbitrarily many growths of the internal storage", "why_tests_cant": "Storage starts with 1000 rows and grows by a size-dependent amount; the off-by-one cases depend on the whole call history, which no finite list of test sequences covers.", "anchors": ["src/tranquilo/history.py:History.add_xs", "src/tranquilo/history.py:History.get_xs", "src/tranquilo/history.py:_add_entries_to_array"]}
{"id": "C02", "title": "Evaluations are stored with the right point and in call order", "statement": "After any sequence of add_xs / add_evals calls, get_fvecs(i) (and get_fvals(i)) returns exactly the evaluations recorded for point i, in the order in which they were recorded, whatever was recorded for other points in between; points never evaluated give an empty result.", "quantifier": "all finite sequences of successful calls with any non-negative indices, including repeated indices inside a call, and every point i < get_n_xs()", "why_tests_cant": "Interleavings of batches for different points are unbounded; a test only fixes one interleaving.", "anchors": ["src/tranquilo/history.py:History.add_evals", "src/tranquilo/history.py:History.get_fvecs", "src/tranquilo/history.py:History.get_fvals", "src/tranquilo/history.py:_extract_from_indices"]}
{"id": "C03", "title": "The evaluation counter is exact and storage padding never leaks", "statement": "After any sequence of calls get_n_fun() equals the total number of evaluations recorded, the per-point evaluation counts of get_n_evals add up to get_n_fun(), and no query ever returns one of the NaN rows used as storage padding.", "quantifier": "all finite sequences of successful add_xs/add_evals calls", "why_tests_cant": "The budget check of the optimizer relies on the counter for runs of any length; padding exists only relative to the internal capacity reached by a particular history.", "anchors": ["src/tranquilo/history.py:History.get_n_fun", "src/tranquilo/history.py:History.get_n_evals", "src/tranquilo/history.py:_add_entries_to_array"]}
{"id": "C04", "title": "Stored scalar values are the aggregate of the stored vectors", "statement": "For every recorded evaluation the value returned by get_fvals is the aggregate of the vector returned by get_fvecs at the same position: the entry itself (scalar), the sum of the entries (likelihood), or the sum of squares (least_squares).", "quantifier": "all histories and all three functypes, all evaluation vectors", "why_tests_cant": "Both arrays are grown and written independently; tests compare them on a handful of entries only.", "anchors": ["src/tranquilo/history.py:History.__init__", "src/tranquilo/history.py:History.add_evals"]}
{"id": "C05", "title": "Rejected add_evals calls have no effect", "statement": "If add_evals is called with an index >= get_n_xs(), or with a non-empty list of evaluations whose number differs from the (non-zero) number of indices, it raises and every later query returns what it would have returned without the call.", "quantifier": "all histories and all invalid argument combinations of these two kinds", "why_tests_cant": "Absence of a visible effect has to hold for every subsequent query of every history.", "anchors": ["src/tranquilo/history.py:History.add_evals"]}
{"id": "C06", "title": "A failing add_evals call never corrupts the history (negative indices)", "statement": "Whenever add_evals raises an exception, all later queries behave as if the call had not happened - also when the index list contains negative numbers.", "quantifier": "all histories and all index lists", "why_tests_cant": "The corruption needs a mix of a valid and a negative index and shows up only in later queries. (The code violates this: the range check only looks at the upper end.)", "anchors": ["src/tranquilo/history.py:History.add_evals"]}
{"id": "C07", "title": "The region query returns exactly the points inside the region", "statement": "get_x_indices_in_region(region) returns, in increasing order and without repetition, exactly the indices i < get_n_xs() whose parameter vector has euclidean distance <= region.radius from region.center - and the empty result when nothing has been evaluated yet.", "quantifier": "all histories and all regions", "why_tests_cant": "Exactness (no point missed, none added) quantifies over all point clouds and regions.", "anchors": ["src/tranquilo/history.py:History.get_x_indices_in_region"]}
{"id": "C08", "title": "Averaged model data pairs every point with the mean of its own evaluations", "statement": "get_model_data(indices, average=True) returns for a duplicate-free index list one row per index: the point itself and the component-wise mean of exactly the evaluations recorded for that point; with average=False it returns one row per recorded evaluation, each paired with its own point.", "quantifier": "all histories, all duplicate-free index lists", "why_tests_cant": "Row alignment between two arrays that are assembled from a dict and from fancy indexing must hold for every index order.", "anchors": ["src/tranquilo/history.py:History.get_model_data"]}
{"id": "C09", "title": "Model data stays aligned for repeated indices", "statement": "get_model_data(indices) returns as many points as function values for every index list, in particular when an index occurs twice.", "quantifier": "all index lists with entries < get_n_xs()", "why_tests_cant": "Needs duplicates, which the dict-based implementation silently collapses. (The code violates this.)", "anchors": ["src/tranquilo/history.py:History.get_model_data", "src/tranquilo/history.py:_extract_from_indices"]}
{"id": "C10", "title": "The wrapped criterion performs and records exactly the requested evaluations", "statement": "Calling the wrapped criterion with {i: n_i} calls the user criterion exactly sum(n_i) times, n_i times at the stored point i, records exactly these results under the right indices in order, increases get_n_fun() by sum(n_i), never uses more workers than evaluations or than n_cores, and does nothing for an empty dict.", "quantifier": "all histories, all request dicts with indices in the history and non-negative repetitions, all criterion functions (including stateful/noisy ones, modelled by an arbitrary sequence of results)", "why_tests_cant": "np.repeat bookkeeping for arbitrary request dicts and arbitrary criterion behaviour.", "anchors": ["src/tranquilo/wrap_criterion.py:get_wrapped_criterion"]}
{"id": "C11", "title": "Failed and NaN evaluations of scalar criteria are stored as +inf and nothing else is altered", "statement": "For a scalar criterion an evaluation that raises or returns NaN is recorded as +inf; finite values and +-inf are recorded unchanged; NaN is never stored.", "quantifier": "all request dicts and all criterion behaviours (return, raise, NaN, infinities)", "why_tests_cant": "All mixes of failing and succeeding evaluations in a batch.", "anchors": ["src/tranquilo/wrap_criterion.py:get_wrapped_criterion"]}
{"id": "C12", "title": "A failing evaluation of a vector-valued criterion does not abort the optimization", "statement": "For likelihood and least_squares criteria, an evaluation that raises is recorded as a penalty and the optimizer carries on, as for scalar criteria.", "quantifier": "all batches that contain at least one failing and one succeeding evaluation", "why_tests_cant": "Depends on which member of which batch fails; the shipped tests never let a vector-valued criterion fail. (The code violates this: a scalar inf is mixed with vectors.)", "anchors": ["src/tranquilo/wrap_criterion.py:get_wrapped_criterion", "src/tranquilo/history.py:History.add_evals"]}
{"id": "C13", "title": "Aggregated function values are never NaN", "statement": "If no recorded evaluation contains NaN, no value returned by get_fvals is NaN.", "quantifier": "all histories of all three functypes", "why_tests_cant": "Requires contributions with infinities of both signs in one evaluation. (True for scalar and least_squares; the code violates this for likelihood.)", "anchors": ["src/tranquilo/wrap_criterion.py:get_wrapped_criterion", "src/tranquilo/history.py:History.__init__"]}
{"id": "C14", "title": "Cube trust regions are boxes inside the bounds that contain the center", "statement": "For a trust region whose center satisfies the bounds, lower <= cube_lower <= center <= cube_upper <= upper component-wise, and the box is contained in the cube of the volume-equivalent radius around the center.", "quantifier": "all dimensions, centers within bounds, radii > 0, bounds possibly infinite on either side", "why_tests_cant": "Continuous inputs in every dimension.", "anchors": ["src/tranquilo/region.py:_create_cube_bounds", "src/tranquilo/region.py:Region"]}
{"id": "C15", "title": "Spherical trust regions never reach a bound", "statement": "If the region reports shape 'sphere' then every point of the closed ball of the trust-region radius around the center satisfies the bounds; and if some bound is closer to the center than the radius the shape is 'cube'.", "quantifier": "all centers, radii, and bounds given on both sides", "why_tests_cant": "Continuous inputs in every dimension.", "anchors": ["src/tranquilo/region.py:_any_bounds_binding", "src/tranquilo/region.py:_get_shape"]}
{"id": "C16", "title": "Mapping to unit space and back is lossless", "statement": "map_from_unit(map_to_unit(x)) = x for every x in the region and map_to_unit(map_from_unit(u)) = u for every u in the unit ball/cube; the region is mapped onto the unit ball / unit cube.", "quantifier": "all regions with positive radius (and non-degenerate cube), all points", "why_tests_cant": "Continuous inputs in every dimension, both shapes.", "anchors": ["src/tranquilo/region.py:Region.map_to_unit", "src/tranquilo/region.py:Region.map_from_unit"]}
{"id": "C17", "title": "Points mapped from the unit cube satisfy the bounds", "statement": "For a cube-shaped region map_from_unit(u) lies inside the cube bounds and hence inside the parameter bounds, for every input u, even outside [-1, 1].", "quantifier": "all cube-shaped regions, all u", "why_tests_cant": "Continuous inputs; the final clip is the only safeguard.", "anchors": ["src/tranquilo/region.py:Region.map_from_unit"]}
{"id": "C18", "title": "One-sided bounds are accepted", "statement": "A region can be built (no exception) whenever bounds are given as None or as vectors, in particular when only lower or only upper bounds are given.", "quantifier": "all bounds where one side is None and the other has a finite entry", "why_tests_cant": "Depends on a combination of None and of geometry. (The code violates this: UnboundLocalError.)", "anchors": ["src/tranquilo/region.py:_any_bounds_binding"]}
{"id": "C19", "title": "Sphere and cube radii describe equal volumes and convert back and forth losslessly", "statement": "get_radius_of_cube_with_volume_of_sphere and get_radius_of_sphere_with_volume_of_cube are inverse to each other and preserve the volume given by get_volume; get_radius inverts get_volume for both shapes; volume scaling multiplies the volume by exactly the scaling factor; the equal-volume cube is never larger than the ball's bounding cube.", "quantifier": "all dimensions >= 1 and all positive radii, volumes and scaling factors", "why_tests_cant": "Continuous identities over all dimensions.", "anchors": ["src/tranquilo/volume.py:get_radius_of_cube_with_volume_of_sphere", "src/tranquilo/volume.py:get_radius_of_sphere_with_volume_of_cube", "src/tranquilo/volume.py:get_volume", "src/tranquilo/volume.py:get_radius", "src/tranquilo/volume.py:get_radius_after_volume_scaling"]}
{"id": "C20", "title": "The radius update stays in [min_radius, max_radius]", "statement": "With an infinite max_radius_to_step_ratio the updated radius lies in [min_radius, max_radius] whatever the old radius, step length and rho (including infinite or NaN rho) are.", "quantifier": "all radii, step lengths, rho values incl. +-inf and NaN, all option values with min_radius <= max_radius", "why_tests_cant": "All real and special inputs.", "anchors": ["src/tranquilo/adjust_radius.py:adjust_radius"]}
{"id": "C21", "title": "The radius grows, stays or shrinks as documented", "statement": "Before clipping the radius is multiplied by expansion_factor iff rho >= rho_increase and the step was large, kept iff not expanded and (rho >= rho_decrease or the number of evaluations was increased), and multiplied by shrinking_factor otherwise; in particular a rejected step with rho < rho_decrease never increases a radius that lies within the limits.", "quantifier": "all radii, step lengths, rho values incl. special values and options", "why_tests_cant": "Case analysis over all reals.", "anchors": ["src/tranquilo/adjust_radius.py:adjust_radius"]}
{"id": "C22", "title": "The radius stays positive with a finite max_radius_to_step_ratio", "statement": "With a finite max_radius_to_step_ratio the updated radius is still at least min_radius.", "quantifier": "all step lengths (including zero, i.e. rejected steps)", "why_tests_cant": "The failure needs the upper clip limit to fall below the lower one. (The code violates this: a rejected step sets the radius to 0.)", "anchors": ["src/tranquilo/adjust_radius.py:adjust_radius"]}
{"id": "C23", "title": "The default initial trust region is usable for every start vector", "statement": "The default initial radius is positive and within [min_radius, max_radius] for every start vector.", "quantifier": "all start vectors", "why_tests_cant": "Tests use start vectors away from zero. (The code violates this for x = 0: radius 0.)", "anchors": ["src/tranquilo/options.py:get_default_radius_options"]}
{"id": "C24", "title": "Accepted candidates improve the criterion by at least min_improvement", "statement": "With the classic and naive_noisy deciders, a candidate is accepted only if its (mean) value is finite and not larger than the current value minus min_improvement; conversely a finite candidate with that much improvement is always accepted.", "quantifier": "all histories, states (including infinite current value), candidates and criterion results", "why_tests_cant": "All floating point special cases and all histories.", "anchors": ["src/tranquilo/acceptance_decision.py:_accept_simple"]}
{"id": "C25", "title": "A rejected candidate leaves the accepted point untouched", "statement": "If the decision is 'not accepted' then x, fval and index of the result are those of the previous state and step_length is 0; if it is 'accepted' they are the candidate's, with x = get_xs(index).", "quantifier": "all four deciders, all states and criterion results", "why_tests_cant": "All branches of all deciders over all inputs.", "anchors": ["src/tranquilo/acceptance_decision.py:_get_acceptance_result", "src/tranquilo/acceptance_decision.py:_accept_simple", "src/tranquilo/acceptance_decision.py:accept_noisy", "src/tranquilo/acceptance_decision.py:accept_classic_line_search"]}
{"id": "C26", "title": "Non-finite candidates are never accepted", "statement": "A candidate whose (mean) criterion value is +inf, -inf or NaN is rejected, with rho = -inf, by every built-in decider.", "quantifier": "all deciders, all states and criterion results", "why_tests_cant": "All combinations of special values.", "anchors": ["src/tranquilo/acceptance_decision.py:_accept_simple", "src/tranquilo/acceptance_decision.py:accept_noisy", "src/tranquilo/acceptance_decision.py:accept_classic_line_search"]}
{"id": "C27", "title": "rho is defined for all inputs and equals actual over expected improvement", "statement": "calculate_rho never divides by zero; for a positive expected improvement its sign is the sign of the actual improvement and rho * expected = actual; for zero expected improvement it is +inf if there was an actual improvement and -inf otherwise.", "quantifier": "all actual improvements incl. special values and all expected improvements", "why_tests_cant": "All real inputs.", "anchors": ["src/tranquilo/acceptance_decision.py:calculate_rho"]}
{"id": "C28", "title": "Every decider spends exactly its advertised number of evaluations", "statement": "classic uses 1 evaluation, naive_noisy 10, line search exactly batch_size, noisy n_1 + n_2; the evaluated points are new history entries, except the additional evaluations of the current point in the noisy decider.", "quantifier": "all histories, states, batch sizes and trust regions; sampler assumed to return the requested number of points", "why_tests_cant": "The split between candidate, line points and speculative points varies with geometry and batch size.", "anchors": ["src/tranquilo/acceptance_decision.py:accept_classic_line_search", "src/tranquilo/acceptance_decision.py:_generate_alpha_grid", "src/tranquilo/acceptance_decision.py:accept_noisy"]}
{"id": "C29", "title": "The line search returns the best evaluated point of its batch", "statement": "When the line-search decider accepts a point, no other point evaluated in that call has a smaller value, and the accepted value is at most the current value minus min_improvement; rho is computed from the subproblem's own candidate.", "quantifier": "all batch sizes > 1, all criterion results, all line/speculative samples", "why_tests_cant": "All orderings of batch results including ties and infinities.", "anchors": ["src/tranquilo/acceptance_decision.py:accept_classic_line_search"]}
{"id": "C30", "title": "Line-search points satisfy the bounds", "statement": "Every point the line-search decider evaluates lies within the parameter bounds.", "quantifier": "all bounded problems", "why_tests_cant": "Needs a candidate near a bound and step multiples 2, 4, 8. (The code violates this: the points are not clipped.)", "anchors": ["src/tranquilo/acceptance_decision.py:_sample_on_line", "src/tranquilo/acceptance_decision.py:accept_classic_line_search"]}
{"id": "C31", "title": "The reported current value of the noisy decider is the average of all evaluations of the current point", "statement": "After accept_noisy the value stored in the state is the mean of all evaluations recorded for the state's index.", "quantifier": "all histories and outcomes", "why_tests_cant": "Requires a rejection after extra evaluations changed the mean. (True on acceptance; the code violates this on rejection.)", "anchors": ["src/tranquilo/acceptance_decision.py:accept_noisy", "src/tranquilo/tranquilo.py:State"]}
{"id": "C32", "title": "Acceptance sample sizes respect their limits", "statement": "get_acceptance_sample_sizes returns n_1 >= 0 and n_2 in [n_min, n_max], with existing_n1 + n_1 <= max(n_max, existing_n1) for every noise level and expected improvement.", "quantifier": "all sigma, existing counts, improvements, levels; integer n_min <= n_max", "why_tests_cant": "All real inputs incl. the unbounded raw sizes.", "anchors": ["src/tranquilo/acceptance_sample_size.py:get_acceptance_sample_sizes"]}
{"id": "C33", "title": "The unclipped acceptance sample sizes attain exactly the requested power", "statement": "For the raw sizes, sigma^2/N1 + sigma^2/n_2 = (effect / (z_conf + z_power))^2 where N1 = existing_n1 + n_1, i.e. the two-sample test has exactly the requested power; all denominators are positive.", "quantifier": "all positive sigma, effects, existing counts and quantile sums", "why_tests_cant": "Algebraic identity over all reals in two branches.", "anchors": ["src/tranquilo/acceptance_sample_size.py:_get_optimal_sample_sizes", "src/tranquilo/acceptance_sample_size.py:_compute_factor"]}
{"id": "C34", "title": "The number of evaluations per point stays within its limits and moves by at most one", "statement": "adjust_n_evals keeps the number in [min_n_evals, max_n_evals] if it was there before, changes it by at most one, and its flag is true iff the number increased.", "quantifier": "all simulated rho arrays, rho values and options", "why_tests_cant": "All arrays of all lengths.", "anchors": ["src/tranquilo/adjust_n_evals.py:adjust_n_evals"]}
{"id": "C35", "title": "next_multiple returns the smallest sufficient multiple of the batch size", "statement": "next_multiple(n, base) is a multiple of base, at least n, and less than n + base; it is 0 for n = 0.", "quantifier": "all integers n >= 0 and base >= 1 (below 2^53)", "why_tests_cant": "Infinite integer domain.", "anchors": ["src/tranquilo/process_arguments.py:next_multiple"]}
{"id": "C36", "title": "Aggregated models predict the aggregate of the vector model", "statement": "scalar_model.predict(x) equals the entry (identity), the sum (sum), or the sum of squares (least_squares_linear) of vector_model.predict(x) for every x; for information_equality_linear it equals the sum of the linear predictions minus a quarter of the sum of squared slopes times x.", "quantifier": "all models of all dimensions, all numbers of residuals, all points x", "why_tests_cant": "Polynomial identities over all matrices and dimensions.", "anchors": ["src/tranquilo/aggregate_models.py:aggregator_identity", "src/tranquilo/aggregate_models.py:aggregator_sum", "src/tranquilo/aggregate_models.py:aggregator_least_squares_linear", "src/tranquilo/aggregate_models.py:aggregator_information_equality_linear", "src/tranquilo/models.py:_predict_scalar", "src/tranquilo/models.py:_predict_vector"]}
{"id": "C37", "title": "Aggregated Hessians are symmetric and definite as expected", "statement": "The least_squares_linear Hessian is symmetric positive semidefinite and the information_equality_linear Hessian symmetric negative semidefinite.", "quantifier": "all vector models of all sizes", "why_tests_cant": "All matrices.", "anchors": ["src/tranquilo/aggregate_models.py:aggregator_least_squares_linear", "src/tranquilo/aggregate_models.py:aggregator_information_equality_linear"]}
{"id": "C38", "title": "Moving a model to another spherical region does not change its predictions", "statement": "For a model with symmetric square terms and scalar scales, move_model(model, region).predict(region.map_to_unit(x)) equals the prediction of the old model at the same x in its own unit space; shift and scale of the result are those of the region; the argument is not modified.", "quantifier": "all scalar and vector models with symmetric Hessians, all old and new spherical regions, all x", "why_tests_cant": "Polynomial identity over all dimensions.", "anchors": ["src/tranquilo/models.py:move_model", "src/tranquilo/models.py:_scale_model", "src/tranquilo/models.py:_shift_scalar_model", "src/tranquilo/models.py:_shift_vector_model"]}
{"id": "C39", "title": "Moving a model to an anisotropic cube does not change its predictions", "statement": "move_model preserves predictions also when the effective radius of the region is a vector with different entries.", "quantifier": "all cube-shaped regions", "why_tests_cant": "Needs off-diagonal Hessian entries and unequal radii. (The code violates this; it holds for diagonal Hessians.)", "anchors": ["src/tranquilo/models.py:_scale_model"]}
{"id": "C40", "title": "The sum of two models predicts the sum of the predictions", "statement": "add_models(a, b).predict(x) = a.predict(x) + b.predict(x) whenever add_models returns.", "quantifier": "all pairs of models", "why_tests_cant": "Includes models without square terms, where one side can be dropped. (True when the first model has square terms or neither has; the code violates it when only the second has.)", "anchors": ["src/tranquilo/models.py:add_models"]}
{"id": "C41", "title": "Numbers of free parameters match the feature matrices", "statement": "n_free_params(dim, 'linear'|'quadratic') equals the number of columns of the feature matrix built for that model type; n_second_order_terms = n_interactions + dim.", "quantifier": "all dimensions and sample sizes", "why_tests_cant": "All dimensions.", "anchors": ["src/tranquilo/models.py:n_free_params", "src/tranquilo/models.py:n_second_order_terms", "src/tranquilo/fit_models.py:_build_feature_matrix", "src/tranquilo/fit_models.py:_quadratic_features"]}
{"id": "C42", "title": "The fitted Hessian reproduces the fitted regression function", "statement": "For every coefficient vector, the prediction of the model built by the fitter at x equals the feature vector of x times the coefficients; the Hessian is symmetric.", "quantifier": "all dimensions, coefficients and points", "why_tests_cant": "The index order of features and of the reshaped Hessian must agree in every dimension.", "anchors": ["src/tranquilo/fit_models.py:_reshape_square_terms_to_hess", "src/tranquilo/fit_models.py:_quadratic_features", "src/tranquilo/fit_models.py:_fitter_template"]}
{"id": "C43", "title": "Penalty rescaling does not change which function is fitted", "statement": "fit_tranquilo evaluated on features equals the rescaled regression's fitted values, and among interpolating coefficient vectors it picks the one minimizing the penalty-weighted norm when the inner solver returns the minimum-norm solution.", "quantifier": "all samples, penalties > 0", "why_tests_cant": "All matrices.", "anchors": ["src/tranquilo/fit_models.py:fit_tranquilo"]}
{"id": "C44", "title": "The powell fitter always selects an applicable method", "statement": "fit_powell never reaches the 'too few'/'too many points' errors and always returns as many coefficients as the model type has free parameters.", "quantifier": "all sample sizes, dimensions and both model types", "why_tests_cant": "All pairs of integers.", "anchors": ["src/tranquilo/fit_models.py:fit_powell", "src/tranquilo/fit_models.py:_fit_minimal_frobenius_norm_of_hessian"]}
{"id": "C45", "title": "Lagrange polynomials evaluated for poisedness are the ones that were fitted", "statement": "The square terms rebuilt from a coefficient vector represent the same quadratic function as the features the coefficients belong to.", "quantifier": "all dimensions", "why_tests_cant": "Orders agree for one and two parameters only. (The code violates this from three parameters on.)", "anchors": ["src/tranquilo/poisedness.py:_scaled_polynomial_features", "src/tranquilo/poisedness.py:_reshape_coef_to_square_terms"]}
{"id": "C46", "title": "Infinite function values are replaced by finite ones and finite ones are kept", "statement": "clip_relative returns only finite values, leaves finite entries unchanged and keeps the shape.", "quantifier": "all matrices of extended floating point values incl. columns without any finite value", "why_tests_cant": "All placements of special values.", "anchors": ["src/tranquilo/handle_infinity.py:clip_relative"]}
{"id": "C47", "title": "Clipped infinities stay worse than every finite value of their column", "statement": "After clip_relative, entries that were +inf or NaN are larger than every finite entry of the column and entries that were -inf are smaller.", "quantifier": "all columns", "why_tests_cant": "Fails only if all finite values of a column coincide. (The code violates this there; it holds if a column has two different finite values.)", "anchors": ["src/tranquilo/handle_infinity.py:clip_relative"]}
{"id": "C48", "title": "Dropping points removes exactly the requested number and keeps points and indices paired", "statement": "drop_worst_points(xs, indices, state, n) with n < len(xs) returns a subsequence of the input with exactly n entries removed, each remaining point still paired with its index; drop_excess never returns more than floor(target_size * n_max_factor) points and changes nothing if there are not more.", "quantifier": "all samples, states and n", "why_tests_cant": "All samples of all sizes.", "anchors": ["src/tranquilo/filter_points.py:drop_worst_points", "src/tranquilo/filter_points.py:drop_excess"]}
{"id": "C49", "title": "The current point survives dropping", "statement": "If the current point is in the sample, drop_worst_points with n < len(xs) never drops it.", "quantifier": "all samples with distinct indices, all radii >= 0", "why_tests_cant": "Tie breaking in argmax/argmin over all geometries.", "anchors": ["src/tranquilo/filter_points.py:drop_worst_points"]}
{"id": "C50", "title": "Points outside the trust region are dropped first, farthest first", "statement": "As long as a point is outside the trust region drop_worst_points removes a point of maximal distance from the current point; points inside are only removed when no outside point is left.", "quantifier": "all samples and n", "why_tests_cant": "All geometries.", "anchors": ["src/tranquilo/filter_points.py:drop_worst_points"]}
{"id": "C51", "title": "Clustering produces a valid partition with genuine centers", "statement": "cluster terminates without index error; every point gets a label in [0, n_clusters); every point is within epsilon of the center of its cluster; each center belongs to its own cluster; centers are distinct and pairwise more than epsilon apart.", "quantifier": "all symmetric distance matrices with zero diagonal, all epsilon >= 0", "why_tests_cant": "A nested greedy loop over all point clouds.", "anchors": ["src/tranquilo/clustering.py:_cluster"]}
{"id": "C52", "title": "The clustering filter keeps the current point", "statement": "keep_cluster_centers never drops the trust-region center.", "quantifier": "all samples", "why_tests_cant": "Needs a denser neighbourhood elsewhere. (The code violates this.)", "anchors": ["src/tranquilo/filter_points.py:keep_cluster_centers"]}
{"id": "C53", "title": "The subproblem solution is never worse than the center according to the model", "statement": "The returned expected_improvement is >= 0 for every subsolver, equals the model value at the center minus the model value at the returned unit point, and if the subsolver's point is worse or NaN the center itself is returned with improvement 0.", "quantifier": "all models, regions and arbitrary (even faulty) subsolvers", "why_tests_cant": "The subsolver is arbitrary; all regions and models.", "anchors": ["src/tranquilo/solve_subproblem.py:_solve_subproblem_template"]}
{"id": "C54", "title": "Cube subproblem solutions are feasible", "statement": "For cube-shaped regions the returned unit point lies in [-1,1]^n and the returned x within the parameter bounds, for arbitrary subsolvers.", "quantifier": "all bounded regions with center within bounds, arbitrary subsolvers", "why_tests_cant": "Arbitrary subsolver output.", "anchors": ["src/tranquilo/solve_subproblem.py:_solve_subproblem_template", "src/tranquilo/region.py:Region.map_from_unit"]}
{"id": "C55", "title": "Fallback solvers are used exactly when requested and needed", "statement": "If the primary solver returns, its result is used; if it raises and retry_with_fallback is set, the fallback result is used; if it raises and the flag is not set, the same exception propagates.", "quantifier": "all solvers and exceptions", "why_tests_cant": "Arbitrary solver behaviour.", "anchors": ["src/tranquilo/solve_subproblem.py:_solve_subproblem_template"]}
{"id": "C56", "title": "Sphere subproblem solutions stay in the trust region", "statement": "For sphere-shaped regions the returned x has distance at most radius from the center (hence satisfies the bounds) with the built-in solvers.", "quantifier": "all models and spherical regions", "why_tests_cant": "The default solver stops with a tolerance of 10 percent outside the ball and uses a step of length 2 in a degenerate case. (The code violates this.)", "anchors": ["src/tranquilo/solve_subproblem.py:_solve_subproblem_template", "src/tranquilo/subsolvers/gqtpar_fast.py:_check_for_interior_convergence_and_update", "src/tranquilo/subsolvers/gqtpar_fast.py:_find_new_candidate_and_update_parameters"]}
{"id": "C57", "title": "Conjugate gradient steps stay in the trust region", "statement": "minimize_trust_cg returns a vector of norm at most trustregion_radius.", "quantifier": "all gradients, Hessians (also indefinite or asymmetric), radii and tolerances", "why_tests_cant": "All matrices of all sizes.", "anchors": ["src/tranquilo/subsolvers/_conjugate_gradient.py:minimize_trust_cg", "src/tranquilo/subsolvers/_conjugate_gradient_fast.py:minimize_trust_cg_fast"]}
{"id": "C58", "title": "Conjugate gradient steps never increase the model", "statement": "For a symmetric Hessian the step returned by minimize_trust_cg has a model value (without intercept) <= 0, and the value decreases from iteration to iteration; the internal residual is the model gradient at the iterate.", "quantifier": "all gradients, symmetric Hessians, radii", "why_tests_cant": "Invariants of an iteration of unbounded length.", "anchors": ["src/tranquilo/subsolvers/_conjugate_gradient.py:minimize_trust_cg"]}
{"id": "C59", "title": "Steihaug-Toint steps stay in the trust region", "statement": "minimize_trust_stcg returns a vector of norm at most trustregion_radius.", "quantifier": "all gradients, Hessians, radii", "why_tests_cant": "Needs an initial direction of negative curvature. (The code violates this: the negative-curvature branch does not return.)", "anchors": ["src/tranquilo/subsolvers/_steihaug_toint.py:minimize_trust_stcg"]}
{"id": "C60", "title": "Box-constrained steps respect the bounds", "statement": "minimize_trust_trsbox returns a vector inside its box for every model and radius.", "quantifier": "all models, radii and boxes containing the origin", "why_tests_cant": "Two nested active-set loops.", "anchors": ["src/tranquilo/subsolvers/_trsbox.py:minimize_trust_trsbox", "src/tranquilo/subsolvers/_trsbox.py:_apply_bounds_to_candidate_vector"]}
{"id": "C61", "title": "bntr returns a feasible point", "statement": "bntr / bntr_fast return a point within the bounds for every model, start point within bounds, option values and conjugate gradient method, and they terminate.", "quantifier": "all models, all inner solvers (arbitrary step oracle)", "why_tests_cant": "Nested loops with data-dependent exits.", "anchors": ["src/tranquilo/subsolvers/bntr.py:bntr", "src/tranquilo/subsolvers/bntr_fast.py:bntr_fast"]}
{"id": "C62", "title": "bntr's convergence measure vanishes exactly at stationary points", "statement": "The gradient measure used for convergence is zero at a feasible point iff the point satisfies the first-order (KKT) conditions of the box-constrained problem.", "quantifier": "all points, gradients, bounds (lower < upper or fixed)", "why_tests_cant": "Case analysis over reals with square roots.", "anchors": ["src/tranquilo/subsolvers/bntr.py:_get_fischer_burmeister_direction_vector", "src/tranquilo/subsolvers/bntr.py:_get_fischer_burmeister_scalar"]}
{"id": "C63", "title": "bntr's active sets partition the parameters", "statement": "Every parameter is in exactly one of: active at its lower bound, active at its upper bound, fixed, inactive.", "quantifier": "all points, gradients, bounds", "why_tests_cant": "All sizes and sign patterns.", "anchors": ["src/tranquilo/subsolvers/bntr.py:_get_information_on_active_bounds", "src/tranquilo/subsolvers/bntr_fast.py:_get_information_on_active_bounds"]}
{"id": "C64", "title": "bntr never accepts a step that increases the model", "statement": "A step accepted inside bntr does not increase the model value.", "quantifier": "all models and steps", "why_tests_cant": "Hidden behind an absolute tolerance of 1. (The code violates this: steps that change the model by less than 1 are always accepted.)", "anchors": ["src/tranquilo/subsolvers/bntr.py:_update_trustregion_radius_conjugate_gradient"]}
{"id": "C65", "title": "The criterion value reported by bntr is the model value of the reported point", "statement": "result['criterion'] = model value at result['x'].", "quantifier": "all models", "why_tests_cant": "Needs a gradient descent phase whose best point is not its last one. (The code violates this.)", "anchors": ["src/tranquilo/subsolvers/bntr.py:_take_preliminary_gradient_descent_step_and_check_for_solution"]}
{"id": "C66", "title": "bntr's radius updates stay within [1e-10, 1e10]", "statement": "Every trust-region radius used in the conjugate gradient phase of bntr lies in [min_radius, max_radius]; rejected steps shrink it strictly unless it is at the minimum.", "quantifier": "all inputs", "why_tests_cant": "All reals.", "anchors": ["src/tranquilo/subsolvers/bntr.py:_update_trustregion_radius_conjugate_gradient"]}
{"id": "C67", "title": "gqtpar's damping candidates stay in their bracket", "statement": "For 0 <= lower <= upper the new damping candidate lies in [lower, upper]; the initial bracket is ordered.", "quantifier": "all matrices and gradients", "why_tests_cant": "All reals.", "anchors": ["src/tranquilo/subsolvers/gqtpar.py:_get_new_lambda_candidate", "src/tranquilo/subsolvers/gqtpar_fast.py:_get_new_lambda_candidate", "src/tranquilo/subsolvers/gqtpar_fast.py:_get_initial_guess_for_lambdas"]}
{"id": "C68", "title": "Gershgorin bounds enclose the curvature of the model", "statement": "lower * |x|^2 <= x'Hx <= upper * |x|^2 for the bounds computed from a symmetric H.", "quantifier": "all symmetric matrices and vectors", "why_tests_cant": "All matrices of all sizes.", "anchors": ["src/tranquilo/subsolvers/gqtpar.py:_compute_gershgorin_bounds"]}
{"id": "C69", "title": "The interior-to-boundary step of gqtpar lands on the unit sphere", "statement": "The step length computed for an interior candidate and a direction makes the new candidate have norm exactly 1 and is the one with the smaller absolute value of the two possible steps.", "quantifier": "all candidates with norm < 1 and nonzero directions", "why_tests_cant": "All reals.", "anchors": ["src/tranquilo/subsolvers/gqtpar.py", "src/tranquilo/subsolvers/gqtpar_fast.py:_compute_smallest_step_len_for_candidate_vector"]}
{"id": "C70", "title": "A converged damped Newton point is a global minimizer of the ball-constrained model", "statement": "If (H + lambda I) x = -g with lambda >= 0, H + lambda I positive semidefinite, |x| <= 1 and lambda * (1 - |x|) = 0, then x minimizes the model over the unit ball; this covers gqtpar's interior exit (lambda = 0).", "quantifier": "all symmetric H, all g", "why_tests_cant": "Optimality quantifies over the whole ball.", "anchors": ["src/tranquilo/subsolvers/gqtpar.py:gqtpar", "src/tranquilo/subsolvers/gqtpar_fast.py:gqtpar_fast"]}
{"id": "C71", "title": "Fallback sphere solvers stay in the unit ball", "statement": "The inscribed-cube fallback (radius 1/sqrt(n)) and the reparametrized fallback return points of norm at most 1 for every inner optimizer that respects its box.", "quantifier": "all dimensions and inner optimizers", "why_tests_cant": "All dimensions.", "anchors": ["src/tranquilo/subsolvers/fallback_subsolvers.py:robust_sphere_solver_inscribed_cube", "src/tranquilo/subsolvers/fallback_subsolvers.py:robust_sphere_solver_reparametrized"]}
{"id": "C72", "title": "The linear box-constrained solver returns for every input", "statement": "minimize_trsbox_linear returns a point inside its bounds and the trust region for every gradient.", "quantifier": "all gradients, bounds containing the origin, radii", "why_tests_cant": "Depends on the order in which bounds become active. (The code violates this: an exhausted iterator raises StopIteration / skips bounds.)", "anchors": ["src/tranquilo/subsolvers/linear_subsolvers.py:minimize_trsbox_linear", "src/tranquilo/subsolvers/linear_subsolvers.py:_find_next_active_bound"]}
{"id": "C73", "title": "Sampled points lie in the trust region and within the bounds", "statement": "Points of the hull and optimal_hull samplers have distance exactly radius from the center (sphere) or lie on the boundary of the cube (cube), and within the bounds; interior samplers return points of the region.", "quantifier": "all regions, all random draws (nonzero), all inner optimizers", "why_tests_cant": "All random draws and optimizer results.", "anchors": ["src/tranquilo/sample_points.py:_hull_sampler", "src/tranquilo/sample_points.py:_optimal_hull_sampler", "src/tranquilo/sample_points.py:_project_onto_unit_hull", "src/tranquilo/sample_points.py:_box_sampler"]}
{"id": "C74", "title": "Optimal sampling is never worse than its starting sample", "statement": "The sample returned by the optimal_hull sampler has a determinant criterion at least as large as the start sample's, for any inner optimizer; it has exactly n_points points (none if n_points <= 0).", "quantifier": "all inner optimizers and draws", "why_tests_cant": "Arbitrary optimizer results.", "anchors": ["src/tranquilo/sample_points.py:_optimal_hull_sampler"]}
{"id": "C75", "title": "Distances between existing points are excluded from the sampling criterion, and only those", "statement": "The slice applied to the pairwise distances drops exactly the pairs of two existing points, for any numbers of new and existing points.", "quantifier": "all numbers of new and existing points", "why_tests_cant": "Index arithmetic over all sizes.", "anchors": ["src/tranquilo/sample_points.py:_minimal_pairwise_distance_on_hull"]}
{"id": "C76", "title": "Variance estimation uses properly weighted, sufficiently evaluated points", "statement": "The classic estimator selects at least one point, weights are aligned with their samples, non-negative and sum to one, and the result is the weighted mean of the per-point sample variances.", "quantifier": "all histories in which the region contains an evaluated point", "why_tests_cant": "All histories.", "anchors": ["src/tranquilo/estimate_variance.py:_estimate_variance_classic"]}
{"id": "C77", "title": "The variance estimate is a number", "statement": "The estimated variance is a finite number whenever evaluations are finite.", "quantifier": "all histories", "why_tests_cant": "Needs all points evaluated once. (The code violates this: ddof=1 with a single observation gives NaN.)", "anchors": ["src/tranquilo/estimate_variance.py:_estimate_variance_classic"]}
{"id": "C78", "title": "The reported solution is consistent with the history", "statement": "In every state of every run x = get_xs(index) and candidate_x = get_xs(candidate_index); the trust region of each iteration is centered at the accepted point; solution_x is the x of the last accepted state.", "quantifier": "all runs: any criterion, sampler, filter, fitter, subsolver (arbitrary oracles), any of the four deciders", "why_tests_cant": "Invariant of arbitrarily long executions with arbitrary components.", "anchors": ["src/tranquilo/tranquilo.py:_internal_tranquilo", "src/tranquilo/tranquilo.py:State"]}
{"id": "C79", "title": "The optimizer terminates and respects its evaluation budget up to one iteration", "statement": "The main loop performs at most max_iter iterations and stops after the first iteration at whose end get_n_fun() >= max_eval; hence before the last iteration fewer than max_eval evaluations were made.", "quantifier": "all runs", "why_tests_cant": "All executions.", "anchors": ["src/tranquilo/tranquilo.py:_internal_tranquilo"]}
{"id": "C80", "title": "Accepted function values never increase", "statement": "With the classic decider and min_improvement >= 0 the sequence of accepted values is non-increasing, and the reported solution_criterion is at most the value at the start.", "quantifier": "all runs with non-NaN start value", "why_tests_cant": "All executions.", "anchors": ["src/tranquilo/tranquilo.py:_internal_tranquilo", "src/tranquilo/acceptance_decision.py:_accept_classic"]}
{"id": "C81", "title": "solution_criterion is the value of the criterion at solution_x", "statement": "For deterministic (non-noisy) runs with one evaluation per point, solution_criterion = get_fvals(index)[0], the value returned by the criterion at solution_x.", "quantifier": "all non-noisy runs with the classic decider", "why_tests_cant": "All executions.", "anchors": ["src/tranquilo/tranquilo.py:_internal_tranquilo"]}
{"id": "C82", "title": "The trust-region radius stays in its limits during the whole run", "statement": "From the second iteration on every trust-region radius lies in [min_radius, max_radius].", "quantifier": "all runs with infinite max_radius_to_step_ratio", "why_tests_cant": "Invariant over executions.", "anchors": ["src/tranquilo/tranquilo.py:_internal_tranquilo", "src/tranquilo/adjust_radius.py:adjust_radius"]}
{"id": "C83", "title": "Model bookkeeping is a partition", "statement": "In every state, new_indices and old_indices_used are disjoint and together are the model indices; old_indices_used and old_indices_discarded partition the indices found in the search region.", "quantifier": "all runs", "why_tests_cant": "All executions.", "anchors": ["src/tranquilo/tranquilo.py:_internal_tranquilo"]}
{"id": "C84", "title": "Every model point has been evaluated often enough", "statement": "When the model is fitted every model point has at least n_evals_per_point recorded evaluations.", "quantifier": "all runs (noisy included)", "why_tests_cant": "Depends on the whole evaluation history of each point.", "anchors": ["src/tranquilo/tranquilo.py:_get_additional_eval_info", "src/tranquilo/tranquilo.py:_internal_tranquilo"]}
{"id": "C85", "title": "The accepted point is always among the model points", "statement": "With the keep_all and drop_excess filters the current point is contained in the model indices in every iteration.", "quantifier": "all runs", "why_tests_cant": "Across filtering, dropping and resampling steps.", "anchors": ["src/tranquilo/tranquilo.py:_internal_tranquilo", "src/tranquilo/filter_points.py"]}
{"id": "C86", "title": "Convergence is reported exactly when a documented tolerance is met", "statement": "_is_converged returns True iff at least one of the six criteria holds, with the message of the first one; the loop reports convergence only after an accepted step and never if convergence checks are disabled.", "quantifier": "all pairs of states, all tolerances, all runs", "why_tests_cant": "All reals.", "anchors": ["src/tranquilo/tranquilo.py:_is_converged", "src/tranquilo/tranquilo.py:_internal_tranquilo"]}
{"id": "C87", "title": "A reason for stopping is always reported", "statement": "The result message is not None.", "quantifier": "all runs", "why_tests_cant": "Requires hitting max_iter. (The code violates this: message None.)", "anchors": ["src/tranquilo/tranquilo.py:_internal_tranquilo"]}
{"id": "C88", "title": "All stopping options are honoured", "statement": "stopping_max_time and convergence_min_trust_region_radius influence the run as documented.", "quantifier": "all option values", "why_tests_cant": "Non-interference. (The code violates this: both options are ignored - the result does not depend on them.)", "anchors": ["src/tranquilo/tranquilo.py:_internal_tranquilo", "src/tranquilo/options.py:StopOptions", "src/tranquilo/options.py:ConvOptions"]}
{"id": "C89", "title": "The stagnation loops terminate within their limits", "statement": "The point-dropping loop ends with at least target_sample_size points, the resampling loop runs at most max(1, max_trials) times and adds at most sample_increment points per trial.", "quantifier": "all runs", "why_tests_cant": "Loops driven by arbitrary subsolver results.", "anchors": ["src/tranquilo/tranquilo.py:_internal_tranquilo"]}
{"id": "C90", "title": "The number of evaluations per iteration is bounded", "statement": "In a non-noisy run with the classic decider an iteration uses at most next_multiple(target_sample_size, batch_size) + max(1,max_trials) * sample_increment + 1 evaluations, so the budget is overshot by less than that.", "quantifier": "all runs", "why_tests_cant": "All executions.", "anchors": ["src/tranquilo/tranquilo.py:_internal_tranquilo"]}
{"id": "C91", "title": "Convergence is only reported after actual progress", "statement": "The run does not stop as 'converged' right after a subproblem solution identical to the current point.", "quantifier": "all runs", "why_tests_cant": "Needs the subsolver to return the center. (The code violates this: the center is re-evaluated, accepted with zero improvement and the criterion change is 0.)", "anchors": ["src/tranquilo/tranquilo.py:_internal_tranquilo", "src/tranquilo/tranquilo.py:_is_converged"]}
{"id": "C92", "title": "The reported solution is the best evaluated point", "statement": "No point evaluated during the run has a smaller recorded value than solution_criterion.", "quantifier": "all runs", "why_tests_cant": "Sampled model points can be better than all accepted ones. (The code violates this.)", "anchors": ["src/tranquilo/tranquilo.py:_internal_tranquilo"]}
{"id": "C93", "title": "The residualized fit uses the previous model", "statement": "With residualize=True iteration k is fitted to the residuals of the model of iteration k-1.", "quantifier": "all runs with residualize=True", "why_tests_cant": "Needs two iterations. (The code violates this: the stored vector model is never updated; always the constant start model is used.)", "anchors": ["src/tranquilo/tranquilo.py:_internal_tranquilo", "src/tranquilo/fit_models.py:_fitter_template"]}
{"id": "C94", "title": "All criterion evaluations are inside the bounds", "statement": "For a start point within (two-sided) bounds, samplers that return points of their region and cube-shaped regions, every point ever evaluated lies within the bounds (classic and noisy deciders).", "quantifier": "all runs in which the subproblem solution is feasible (cube region, or sphere solver returning points of the ball)", "why_tests_cant": "All executions.", "anchors": ["src/tranquilo/tranquilo.py:_internal_tranquilo", "src/tranquilo/acceptance_decision.py", "src/tranquilo/region.py"]}
{"id": "C95", "title": "Option bundles: user values override, others keep defaults, unknown names are rejected", "statement": "update_option_bundle returns the defaults with exactly the user-specified fields replaced (converted to the default's type), raises for unknown fields and changes nothing for None.", "quantifier": "all bundles and user dicts", "why_tests_cant": "All subsets of options.", "anchors": ["src/tranquilo/options.py:update_option_bundle"]}
{"id": "C96", "title": "Component wrappers pass exactly the supported arguments, runtime arguments winning", "statement": "A component built by get_component is called with exactly those arguments that its signature contains; runtime keyword arguments override positional ones, which override options, which override defaults; redundant arguments are dropped; missing mandatory arguments raise at construction.", "quantifier": "all signatures, options and call arguments", "why_tests_cant": "All argument sets.", "anchors": ["src/tranquilo/get_component.py:get_component", "src/tranquilo/get_component.py:_add_redundant_argument_handling"]}
{"id": "C97", "title": "Accepted arguments satisfy the documented constraints", "statement": "If process_arguments accepts its arguments then batch_size >= n_cores, n_evals_at_start >= 1, n_evals_per_point >= 1, search_radius_factor > 0, model_type is valid and (functype, model_type) is one of the three supported combinations; with defaults it always accepts.", "quantifier": "all argument values", "why_tests_cant": "All argument values.", "anchors": ["src/tranquilo/process_arguments.py:process_arguments", "src/tranquilo/options.py:get_default_aggregator"]}
{"id": "C98", "title": "Relative gradient tolerance is relative", "statement": "The relative gradient criterion compares the gradient norm to a reference scale other than itself.", "quantifier": "all gradients", "why_tests_cant": "Non-interference. (The code violates this: for norms below one it coincides with the absolute norm, above one it is constantly 1.)", "anchors": ["src/tranquilo/tranquilo.py:_is_converged"]}
{"id": "C99", "title": "Parameter vectors of the wrong length are rejected", "statement": "add_xs raises and changes nothing if a vector's length differs from that of the vectors already stored.", "quantifier": "all histories and vectors", "why_tests_cant": "Needs a length-one vector in a multi-dimensional history. (The code violates this: numpy broadcasting fills the whole row.)", "anchors": ["src/tranquilo/history.py:History.add_xs", "src/tranquilo/history.py:_add_entries_to_array"]}
{"id": "C100", "title": "Ridge regression minimizes the penalized objective", "statement": "fit_ridge returns a minimizer of the weighted squared errors plus the l2-penalized squared coefficients, without penalty on the intercept, whenever the inner solver returns some least squares solution of the normal equations.", "quantifier": "all samples, weights >= 0, penalties >= 0, both model types", "why_tests_cant": "Optimality over all coefficient vectors.", "anchors": ["src/tranquilo/fit_models.py:fit_ridge", "src/tranquilo/fit_models.py:_fit_ridge"]}
{"id": "C101", "title": "Dropping points composes", "statement": "drop_worst_points computes distances once and deletes rows and columns; this gives the same result as recomputing everything after every dropped point: dropping a+b points equals dropping a points and then b points.", "quantifier": "all samples, states, a and b", "why_tests_cant": "Equivalence over all inputs of an incremental and a naive algorithm.", "anchors": ["src/tranquilo/filter_points.py:drop_worst_points"]}
{"id": "C102", "title": "The multistart cube solver takes the best start", "statement": "robust_cube_solver_multistart returns the result of a start with the smallest criterion among all starts, inside the unit cube.", "quantifier": "all models, all start samples, all inner optimizers that respect their box", "why_tests_cant": "All inner optimizers.", "anchors": ["src/tranquilo/subsolvers/fallback_subsolvers.py:robust_cube_solver_multistart"]}
{"id": "C103", "title": "The numba conjugate gradient solver equals the numpy one", "statement": "In exact arithmetic minimize_trust_cg_fast returns the same vector as minimize_trust_cg, or raises the same exception.", "quantifier": "all gradients, Hessians, radii, tolerances", "why_tests_cant": "Equivalence over all inputs; tests compare a handful of inputs up to rounding.", "anchors": ["src/tranquilo/subsolvers/_conjugate_gradient_fast.py:minimize_trust_cg_fast", "src/tranquilo/subsolvers/_conjugate_gradient.py:minimize_trust_cg"]}
{"id": "C104", "title": "trsbox stays in the trustregion", "statement": "minimize_trust_trsbox returns a vector whose norm is at most the trustregion radius, also after bounds became active and after the alternative steps along the boundary.", "quantifier": "all models, radii >= 0, boxes containing the origin", "why_tests_cant": "The alternative step rotates within a sphere of changing dimension; needs an invariant over all iterations.", "anchors": ["src/tranquilo/subsolvers/_trsbox.py:minimize_trust_trsbox", "src/tranquilo/subsolvers/_trsbox.py:_perform_alternative_trustregion_step"]}
{"id": "C105", "title": "trsbox does not increase the model", "statement": "For a symmetric Hessian the vector returned by minimize_trust_trsbox has a model value (without intercept) of at most zero, and the tracked total reduction is the actual decrease.", "quantifier": "all symmetric models, all radii, boxes containing the origin", "why_tests_cant": "All iterations of two nested loops.", "anchors": ["src/tranquilo/subsolvers/_trsbox.py:minimize_trust_trsbox"]}
{"id": "C106", "title": "bntr does not enlarge the radius after poor agreement", "statement": "In the gradient descent phase of bntr the radius is not enlarged when actual and predicted reduction disagree by more than half of the prediction (|kappa - 1| > 1/2).", "quantifier": "all radii, gradients, predicted and actual reductions", "why_tests_cant": "Seven branches on two ratios; the offending region is thin.", "anchors": ["src/tranquilo/subsolvers/bntr.py:_update_trustregion_radius_and_gradient_descent", "src/tranquilo/subsolvers/bntr_fast.py:_update_trustregion_radius_and_gradient_descent"]}
{"id": "C107", "title": "bntr does not divide by zero", "statement": "Neither bntr nor bntr_fast raises ZeroDivisionError for a finite model and a start point within the bounds.", "quantifier": "all models, boxes, options", "why_tests_cant": "Needs inputs where a difference of reals is exactly zero.", "anchors": ["src/tranquilo/subsolvers/bntr_fast.py:_update_trustregion_radius_and_gradient_descent", "src/tranquilo/subsolvers/bntr_fast.py:_perform_gradient_descent_step"]}
{"id": "C108", "title": "The numba bntr solver equals the numpy one", "statement": "In exact arithmetic bntr returns the same point, criterion, iteration count and message as bntr_fast whenever bntr_fast returns.", "quantifier": "all models, boxes, start points in the box, options, conjugate gradient methods", "why_tests_cant": "Equivalence over all inputs; the active sets are represented differently in the two versions.", "anchors": ["src/tranquilo/subsolvers/bntr_fast.py:bntr_fast", "src/tranquilo/subsolvers/bntr.py:bntr"]}
{"id": "C109", "title": "gqtpar returns an interior minimizer", "statement": "If the Hessian is positive definite and the unconstrained minimizer lies strictly inside the unit ball, gqtpar returns that minimizer.", "quantifier": "all dimensions, gradients above the zero threshold, positive definite Hessians, options", "why_tests_cant": "The failing inputs are nearly singular Hessians; random test models are well conditioned.", "anchors": ["src/tranquilo/subsolvers/gqtpar.py:gqtpar", "src/tranquilo/subsolvers/gqtpar_fast.py:gqtpar_fast"]}
{"id": "C110", "title": "gqtpar uses negative curvature for a zero gradient", "statement": "For a zero gradient and a Hessian with negative curvature gqtpar returns a point with a smaller model value than the center.", "quantifier": "all dimensions, Hessians with a direction of negative curvature, iteration limits", "why_tests_cant": "Concerns a gradient that is exactly zero and every number of iterations.", "anchors": ["src/tranquilo/subsolvers/gqtpar.py:gqtpar", "src/tranquilo/subsolvers/gqtpar_fast.py:gqtpar_fast"]}
{"id": "C111", "title": "Interior solutions of gqtpar are stationary", "statement": "If gqtpar stops successfully strictly inside the ball, the returned point minimizes the model over the ball.", "quantifier": "all dimensions, models, options, numbers of iterations", "why_tests_cant": "The violation needs a particular sequence of damping factors.", "anchors": ["src/tranquilo/subsolvers/gqtpar.py:gqtpar", "src/tranquilo/subsolvers/gqtpar_fast.py:gqtpar_fast"]}
{"id": "C112", "title": "Lower bound after a failed factorization", "statement": "If the factorization of H + lambda I fails at index k, the terms delta and v satisfy v'(H + lambda I + delta e_k e_k')v = 0, and lambda + delta/|v|^2 is a lower bound for every damping factor that makes the matrix positive semidefinite.", "quantifier": "all dimensions, symmetric Hessians, damping factors", "why_tests_cant": "Algebraic identity over all matrices.", "anchors": ["src/tranquilo/subsolvers/gqtpar.py:_compute_terms_to_make_leading_submatrix_singular", "src/tranquilo/subsolvers/gqtpar.py:_update_lambdas_when_factorization_unsuccessful"]}
{"id": "C113", "title": "The bracket contains the optimal damping factor", "statement": "The damping factor of the solution of the trust-region problem lies between the lower and upper bound initially and after every pass.", "quantifier": "all dimensions, models, options, states of the iteration", "why_tests_cant": "The optimal damping factor is not computed by the code, so a test cannot compare with it without solving the problem.", "anchors": ["src/tranquilo/subsolvers/gqtpar.py:gqtpar", "src/tranquilo/subsolvers/gqtpar_fast.py:gqtpar_fast"]}
{"id": "C114", "title": "Norm of a solution reported by gqtpar", "statement": "A point that gqtpar reports as converged has norm at most 1 + k_easy if the gradient is not zero, and norm 0 or 2 if it is zero.", "quantifier": "all dimensions, models, options, numbers of iterations", "why_tests_cant": "Quantifies over every way in which the iteration can stop.", "anchors": ["src/tranquilo/subsolvers/gqtpar.py:gqtpar", "src/tranquilo/subsolvers/gqtpar_fast.py:gqtpar_fast"]}
{"id": "C115", "title": "Every run returns a result", "statement": "If the components (samplers, fitter, solver, filter, decider, variance and covariance estimators) return values of the right shape without raising, the options are in range and the bounds are two-sided, the optimizer returns a result: all loops end and no step of the loop itself raises.", "quantifier": "all components, options, start points, radii and bounds of this kind", "why_tests_cant": "Termination and absence of exceptions on every path.", "anchors": ["src/tranquilo/tranquilo.py:_internal_tranquilo"]}
{"id": "C116", "title": "Geometry improving step", "statement": "The geometry improving solver returns a point in the ball around the center where the absolute value of the Lagrange polynomial is at least that at the center, raises ValueError exactly if the center violates the bounds, and returns a maximizer over box and ball if steepest descent and ascent leave the bounds in the order of the coordinates.", "quantifier": "all dimensions, centers, Lagrange polynomials, bounds, radii", "why_tests_cant": "Optimality over a continuum of points.", "anchors": ["src/tranquilo/subsolvers/linear_subsolvers.py:improve_geomtery_trsbox_linear"]}
{"id": "C117", "title": "The distance criterion is a soft minimum", "statement": "For finite distances and positive hardness the soft minimum lies between hardness times the minimum less the logarithm of the number of distances and hardness times the minimum, and grows with every distance.", "quantifier": "all nonempty lists of finite distances, all positive hardness factors", "why_tests_cant": "Inequality over all real distances.", "anchors": ["src/tranquilo/sample_points.py:_minimal_pairwise_distance_on_hull"]}
{"id": "C118", "title": "Covariance estimate", "statement": "The covariance estimate is the weighted mean of the sample covariance matrices of the evaluations of the selected points; it is symmetric and positive semidefinite.", "quantifier": "all histories in which the region contains an evaluated point, all radii and options", "why_tests_cant": "The definiteness is a statement about all vectors; points with a single evaluation hit a corner case of np.cov.", "anchors": ["src/tranquilo/estimate_variance.py:_estimate_variance_classic"]}
{"id": "C119", "title": "Option values survive the conversion", "statement": "A number given as an option keeps its value, a string that is not a boolean does not silently become one, and an option cannot become NaN without the user having given NaN.", "quantifier": "all bundles, all user dicts with numeric values", "why_tests_cant": "Depends on the types of the defaults and on every user value.", "anchors": ["src/tranquilo/options.py:update_option_bundle", "src/tranquilo/options.py:SamplerOptions"]}
{"id": "C120", "title": "The documented optional arguments of get_component work", "statement": "get_component works with each documented value of redundant_argument_handling, with its own default values and with every callable.", "quantifier": "all functions, options and call arguments", "why_tests_cant": "The failing branches only run with unusual combinations of arguments.", "anchors": ["src/tranquilo/get_component.py:get_component", "src/tranquilo/get_component.py:_add_redundant_argument_handling"]}
{"id": "C121", "title": "Every built-in component can be selected and called by the main loop", "statement": "Every documented built-in component can be constructed by name with every valid set of options, and the calls made by the main loop bind each parameter of its signature.", "quantifier": "all built-in components, all valid options, all argument values", "why_tests_cant": "All combinations of names and options.", "anchors": ["src/tranquilo/solve_subproblem.py:get_subsolver", "src/tranquilo/sample_points.py:get_sampler", "src/tranquilo/filter_points.py:get_sample_filter", "src/tranquilo/fit_models.py:get_fitter", "src/tranquilo/acceptance_decision.py:get_acceptance_decider", "src/tranquilo/estimate_variance.py:get_variance_estimator"]}
{"id": "C122", "title": "Accepted arguments meet the requirements of the main loop", "statement": "If process_arguments accepts its arguments, then batch size, target sample size and evaluation numbers are positive and, with noise, the number of evaluations lies within the limits of the adaptation; infinite limits are accepted.", "quantifier": "all argument values", "why_tests_cant": "All argument values; links the argument processing to the invariants of the loop.", "anchors": ["src/tranquilo/process_arguments.py:process_arguments"]}
{"id": "C123", "title": "Derived default values", "statement": "With defaults the batch size is the number of cores, the sample size, search radius factor, model type, fitter, filter, decider and stagnation options are the documented functions of functype, dimension, noise and cores, and a model is only fitted by ordinary least squares without residualizing if the target sample determines it.", "quantifier": "all starting points, functypes, noise flags and numbers of cores", "why_tests_cant": "All dimensions and core numbers.", "anchors": ["src/tranquilo/options.py:get_default_sample_size", "src/tranquilo/options.py:get_default_model_fitter", "src/tranquilo/process_arguments.py:process_arguments"]}
{"id": "C124", "title": "Simulated rhos come from independent refits of noisy predictions", "statement": "simulate_rho_noise returns one rho per draw; each rho is computed from a model refitted to the model predictions at the sample points plus that draw's block of noise, relating the improvement of the original model at the subproblem solution of the refitted model to the improvement expected by the refitted model.", "quantifier": "all samples, models, regions, noise matrices, numbers of draws, fitters, solvers and random generators", "why_tests_cant": "Statement about every block of random numbers and every fitted model.", "anchors": ["src/tranquilo/rho_noise.py:simulate_rho_noise"]}
{"id": "C125", "title": "Ignoring correlations uses only the variances", "statement": "With ignore_corr the result of simulate_rho_noise depends on the noise covariance matrix only through its diagonal, and the matrix passed to the generator is diagonal with the given variances.", "quantifier": "all covariance matrices", "why_tests_cant": "A relation between runs with different matrices.", "anchors": ["src/tranquilo/rho_noise.py:simulate_rho_noise"]}
{"id": "C126", "title": "Without noise the simulated rhos are one", "statement": "If the noise is zero and refitting the predictions of a model reproduces the model as a function, then every simulated rho is one, unless the expected improvement is zero.", "quantifier": "all models, regions, samples and solvers whose results are finite", "why_tests_cant": "All models and solvers; equality of an extended real.", "anchors": ["src/tranquilo/rho_noise.py:simulate_rho_noise", "src/tranquilo/acceptance_decision.py:calculate_rho"]}
{"id": "C127", "title": "Noise-free simulations do not increase the number of evaluations", "statement": "If the noise is zero and refitting reproduces the model, adjust_n_evals does not increase the number of evaluations per point on the basis of the simulated rhos.", "quantifier": "all models, regions, solvers and option values with high_rho < 1 and min_share_high_rho < 1", "why_tests_cant": "Combination of three modules over all models.", "anchors": ["src/tranquilo/rho_noise.py:simulate_rho_noise", "src/tranquilo/adjust_n_evals.py:adjust_n_evals"]}
{"id": "C128", "title": "Lagrange polynomials", "statement": "The polynomials computed from the pseudo-inverse are one at their own sample point and zero at the others if the feature rows are independent, and every quadratic polynomial is the combination of them with its values at the sample points if the feature columns are independent.", "quantifier": "all dimensions, all samples", "why_tests_cant": "All dimensions and samples.", "anchors": ["src/tranquilo/poisedness.py:_lagrange_poly", "src/tranquilo/poisedness.py:_build_lagrange"]}
{"id": "C129", "title": "The poisedness constant is the largest critical value found", "statement": "get_poisedness_constant returns the largest absolute value of a Lagrange polynomial at the point the optimizer returned for it, together with this point and the first index that attains it; it fails exactly if all these values are zero.", "quantifier": "all samples, all shapes, all optimizers", "why_tests_cant": "All optimizer results, including degenerate ones.", "anchors": ["src/tranquilo/poisedness.py:get_poisedness_constant"]}
{"id": "C130", "title": "With an exact optimizer the constant is the Lebesgue-type constant of the sample", "statement": "If the optimizer returns global maximizers, the constant bounds every Lagrange polynomial on the shape, is attained there, and is at least one for samples in the shape with independent features.", "quantifier": "all dimensions, all samples", "why_tests_cant": "Maximum over a continuum of points; all dimensions.", "anchors": ["src/tranquilo/poisedness.py:get_poisedness_constant", "src/tranquilo/poisedness.py:_reshape_coef_to_square_terms"]}
{"id": "C131", "title": "Improving poisedness replaces points and enlarges the volume", "statement": "improve_poisedness returns one constant per iteration, keeps the size of the sample, and changes at most one point per iteration to a maximizer of a Lagrange polynomial; the volume (absolute value of the feature determinant) is multiplied by the constant in each iteration and so never decreases with an exact optimizer.", "quantifier": "all samples, shapes, numbers of iterations and dimensions", "why_tests_cant": "All iteration counts; a determinant identity.", "anchors": ["src/tranquilo/poisedness.py:improve_poisedness"]}
{"id": "C132", "title": "The log determinant quality", "statement": "The geometry quality is the logarithm of the determinant of the Gram matrix of the sample in the unit region, minus infinity exactly if the points do not span the space (so always for fewer points than parameters) and never NaN, the order of the points is irrelevant and more points never lower the quality.", "quantifier": "all samples, regions and dimensions", "why_tests_cant": "All dimensions; degenerate samples.", "anchors": ["src/tranquilo/geometry.py:log_d_quality_calculator"]}
{"id": "C133", "title": "Exploration samples lie within the bounds", "statement": "draw_exploration_sample returns the requested number of points, all finite and within the bounds, or raises an error for invalid arguments.", "quantifier": "all bounds, starting points, numbers of points, methods and generators with values in the unit cube", "why_tests_cant": "All random draws and all bounds including degenerate ones.", "anchors": ["src/tranquilo/exploration_sample.py:draw_exploration_sample"]}
{"id": "C134", "title": "Starting points of the multistart fallback lie in the cube", "statement": "The exploration sample of the multistart fallback solver consists of 100 points of the cube [-1,1]^n.", "quantifier": "all models and generators", "why_tests_cant": "All random draws.", "anchors": ["src/tranquilo/subsolvers/fallback_subsolvers.py:solve_multistart", "src/tranquilo/exploration_sample.py:draw_exploration_sample"]}
{"id": "C135", "title": "The determinant criterion of the optimal sampler", "statement": "The criterion maximized by the optimal hull sampler is never negative, it vanishes exactly if the projected points together with the existing points do not span the space, and existing points never lower it; it is NaN exactly if a point cannot be projected.", "quantifier": "all samples, all dimensions, both shapes", "why_tests_cant": "All dimensions and degenerate samples; equality to zero of a determinant.", "anchors": ["src/tranquilo/sample_points.py:_determinant_on_hull"]}
{"id": "C136", "title": "Every pass of bntr solves the problem restricted to the movable parameters", "statement": "In every pass of the inner loop of bntr started at 0, the conjugate gradient method is called with the gradient of the model at the current point, the Hessian and the bounds of exactly those parameters that are neither fixed nor at a bound with the gradient pointing outwards. Only these parameters move: the others keep their value, the movable ones change by their entry of the step and are then clipped to the box. For a symmetric Hessian, the radius update compares the actual change with the model's change along the step before clipping. If the step is rejected point and value stay as they were.", "quantifier": "all dimensions, boxes containing 0, models, conjugate gradient methods, tolerances and pass counts, both implementations", "why_tests_cant": "The index bookkeeping between the full and the restricted problem goes wrong only for particular patterns of active bounds, which tests meet by accident.", "anchors": ["src/tranquilo/subsolvers/bntr.py:139-220", "src/tranquilo/subsolvers/bntr.py:388-540", "src/tranquilo/subsolvers/bntr.py:775-801", "src/tranquilo/subsolvers/bntr_fast.py:534-739"]}
{"id": "C137", "title": "bntr with trsbox reaches the minimizer of a strictly convex model", "statement": "With the conjugate gradient method trsbox, the step computed in a pass keeps the current point within the bounds and bntr makes progress until the model is minimized over the box.", "quantifier": "all strictly convex models and boxes containing 0", "why_tests_cant": "Fails only after the point has moved away from the origin, and then looks like slow convergence.", "anchors": ["src/tranquilo/subsolvers/bntr.py:437-444", "src/tranquilo/subsolvers/bntr_fast.py:622-629"]}
{"id": "C138", "title": "The numba version of trsbox computes what the numpy version computes", "statement": "minimize_trust_trsbox_fast returns the same point, or raises the same error, as minimize_trust_trsbox; with the numba compiler disabled too.", "quantifier": "all gradients, Hessians, radii and boxes with lower bounds at most the upper bounds", "why_tests_cant": "The two files differ in uninitialized variables, which the compiler fills with zeros; the difference shows only when no bound restricts the alternative step.", "anchors": ["src/tranquilo/subsolvers/_trsbox_fast.py:minimize_trust_trsbox_fast", "src/tranquilo/subsolvers/_trsbox_fast.py:_calc_upper_bound_on_tangent", "src/tranquilo/subsolvers/_trsbox.py:minimize_trust_trsbox"]}
{"id": "C139", "title": "The numba version of trsbox does not change the caller's gradient", "statement": "Although the alternative step updates its gradient in place and the gradient starts as the array of the caller, that array is unchanged afterwards, also if an exception is raised.", "quantifier": "all inputs, interpreted or compiled", "why_tests_cant": "Aliasing bugs depend on the path: one needs an alternative step before any movement.", "anchors": ["src/tranquilo/subsolvers/_trsbox_fast.py:60", "src/tranquilo/subsolvers/_trsbox_fast.py:592"]}
{"id": "C140", "title": "The built-in components meet the contracts of the main loop", "statement": "For every combination of the built-in fitters, aggregators, filters, samplers, subsolvers and acceptance deciders and all their options, the components return points of the problem's dimension, filters return distinct known indices with their points, and the properties of the main loop proved for arbitrary good components apply.", "quantifier": "all choices of components and options, all external functions returning arrays of the right shapes, all criteria", "why_tests_cant": "There are hundreds of combinations of components, and the contracts concern every call with every region, history and sample.", "anchors": ["src/tranquilo/process_arguments.py:157-256", "src/tranquilo/tranquilo.py:27-397"]}
{"id": "C141", "title": "Deterministic runs with built-in components succeed", "statement": "A run with a deterministic (not noisy) configuration, built-in components with admissible options and retry with fallback returns a result and raises no exception: for unbounded problems with every subsolver, for bounded problems with sphere solvers that stay in the unit ball; with the line search decider for unbounded problems. The criterion may return infinite values or NaN (with the line search and likelihoods: no infinities of both signs).", "quantifier": "all criteria, start points inside the bounds, radii, bounds, numbers of iterations and admissible choices of components and options", "why_tests_cant": "Exceptions in rare branches (failing subsolvers, degenerate samples, infinite values) in long runs are not reached by a finite number of test problems.", "anchors": ["src/tranquilo/tranquilo.py:27-397", "src/tranquilo/solve_subproblem.py:75-150", "src/tranquilo/fit_models.py:85-149", "src/tranquilo/sample_points.py:58-338", "src/tranquilo/filter_points.py:45-131"]}
{"id": "C142", "title": "Runs with built-in components evaluate no point outside the bounds", "statement": "In every successful run with built-in components all evaluated points satisfy the bounds. (True for the sphere solvers that stay in the unit ball and deciders other than the line search, also for noisy problems; false for the default sphere solver gqtpar, whose points may have norm up to 1 + k_easy: with default options a least squares run evaluates a point outside of the bounds.)", "quantifier": "all runs, criteria, bounds, choices of components and options", "why_tests_cant": "A violation needs a bound whose distance lies between the radius and 1.1 times the radius and a model whose minimizer lies in between; tests rarely check every evaluated point.", "anchors": ["src/tranquilo/tranquilo.py:27-397", "src/tranquilo/subsolvers/gqtpar.py:22-145", "src/tranquilo/region.py:100-152"]}
{"id": "C143", "title": "Deterministic runs evaluate each point once, in the order of the history", "statement": "If the criterion is not noisy, each point is evaluated once and the decider is classic or line search, then evaluation number k is the only evaluation of point k of the history: the numbers of points and evaluations agree and the k-th row of the collected parameter history is the point with index k.", "quantifier": "all runs with arbitrary components, configurations, criteria, bounds", "why_tests_cant": "The alignment is an invariant of every sequence of sampling, resampling, acceptance and line search phases.", "anchors": ["src/tranquilo/tranquilo.py:96-368", "src/tranquilo/visualize.py:86"]}
{"id": "C144", "title": "The plotted sample points are the points of the state", "statement": "For every state of a run, the frame behind the scatter plot lists the model points and the discarded points, each with its index, the parameters that index has in the history of tranquilo, and exactly one of the cases new, existing, discarded.", "quantifier": "all states of all runs", "why_tests_cant": "Whether evaluation order and history indices agree depends on the number of evaluations per point; the plot would silently show wrong points.", "anchors": ["src/tranquilo/visualize.py:437-457", "src/tranquilo/visualize.py:86"]}
{"id": "C145", "title": "Points of a square region", "statement": "The search for rows in a square region returns exactly the rows all of whose entries are within the radius of the center, in increasing order without repetition; rows with NaN or infinities are never in it.", "quantifier": "all arrays, centers, radii", "why_tests_cant": "Needs all arrays including ones with special values.", "anchors": ["src/tranquilo/visualize.py:541-571"]}
{"id": "C146", "title": "Locating a point in the history", "statement": "The search with growing radius ends with the row of the history nearest to the given point.", "quantifier": "all histories and points", "why_tests_cant": "The radius is squared-rooted from 1e-100; ties and rows further than 1 away are never hit by tests, and there the search does not end or returns another row.", "anchors": ["src/tranquilo/visualize.py:574-583"]}
{"id": "C147", "title": "Results of other optimizers are made comparable", "statement": "For results of nag_pybobyqa and nag_dfols the model points and the accepted point of every state but the first are located in the parameter history; results of other optimizers are unchanged.", "quantifier": "all results", "why_tests_cant": "Optimizers that evaluate a point twice make the located indices ambiguous.", "anchors": ["src/tranquilo/visualize.py:516-538", "src/tranquilo/visualize.py:586"]}
{"id": "C148", "title": "Columns of the plot", "statement": "Each documented combination of results and iterations gives one column per case with its name, the processed result and the state of that iteration; the other combinations are rejected.", "quantifier": "all results, dictionaries, iterations", "why_tests_cant": "Combinations of argument types, duplicates and negative iterations.", "anchors": ["src/tranquilo/visualize.py:17-117"]}
{"id": "C149", "title": "Data of the line plots", "statement": "Clipped rhos are in [-1, 3] and otherwise unchanged; the cluster ratio is in (0, 1] and 1 exactly for samples without close points; distances in the maximum norm never exceed the euclidean ones and the common axis range contains all of them.", "quantifier": "all states and histories", "why_tests_cant": "Needs all samples.", "anchors": ["src/tranquilo/visualize.py:287-422"]}
{"id": "C150", "title": "Every name appears exactly once in the legend", "statement": "After cleaning the legend, the traces keep their names and order and each name is shown exactly once.", "quantifier": "all lists of traces", "why_tests_cant": "Depends on the order and visibility of the traces of all subplots.", "anchors": ["src/tranquilo/visualize.py:502-513"]}
{"id": "C151", "title": "Seeds", "statement": "get_rng returns a generator as is, and otherwise the default generator seeded with exactly the given None, non-negative integer or bool; everything else is rejected.", "quantifier": "all seeds", "why_tests_cant": "All python values.", "anchors": ["src/tranquilo/utilities.py:36-53"]}
{"id": "C152", "title": "Proposals for misspelt names", "statement": "propose_alternatives returns min(number, number of possibilities) of the possibilities, none more often than given, in the order of their similarity, and none that is left out is more similar; it raises exactly if there are no possibilities or no proposals are requested.", "quantifier": "all names, possibilities, numbers and similarity measures with non-negative values", "why_tests_cant": "Needs all lists, in particular with ties and repetitions.", "anchors": ["src/tranquilo/utilities.py:6-33", "src/tranquilo/get_component.py:106"]}
{"id": "C153", "title": "Sample weights", "statement": "The built-in weighter returns None for all samples, regions and bounds, however it is called; a weighter of the user receives the bounds; unknown names and objects that are not callable are rejected.", "quantifier": "all weighters, bounds, samples", "why_tests_cant": "All ways of calling with positional and keyword arguments.", "anchors": ["src/tranquilo/weighting.py:4-27"]}
{"id": "C154", "title": "The floating-point operations are those of IEEE 754", "statement": "Sums, differences, products, quotients, square roots and comparisons of the binary64 part of the model agree with IEEE 754 (round to nearest even, overflow to infinity, NaN), except for quotients by the negative zero.", "quantifier": "all pairs of floats", "why_tests_cant": "2^128 pairs of floats.", "anchors": ["src/tranquilo/region.py:49-94", "src/tranquilo/adjust_radius.py:4-43"]}
{"id": "C155", "title": "Rounding does not push points out of the bounds", "statement": "With every operation rounded to binary64, each point of the unit cube is mapped to a point within the bounds, in spheres and cubes, and so is the candidate of the subproblem solver.", "quantifier": "all centers, radii, bounds, points; centers and cube radii up to 2^1020", "why_tests_cant": "A violation by one unit in the last place would need special floats.", "anchors": ["src/tranquilo/region.py:11-152", "src/tranquilo/solve_subproblem.py:178-226"]}
{"id": "C156", "title": "Rounding does not push the center out of the unit cube", "statement": "With every operation rounded to binary64, the center of the region in unit coordinates lies in the unit cube (0 in spheres).", "quantifier": "all centers, radii, bounds", "why_tests_cant": "Needs radii that are small relative to the center.", "anchors": ["src/tranquilo/region.py:49-82", "src/tranquilo/solve_subproblem.py:178"]}
{"id": "C157", "title": "Sampled points differ from the center", "statement": "With every operation rounded to binary64, the extreme points of a region differ from its center.", "quantifier": "all centers and radii", "why_tests_cant": "Needs radii that are small relative to the center.", "anchors": ["src/tranquilo/region.py:57-94"]}
{"id": "C158", "title": "Rounding does not push projected points out of the unit cube", "statement": "With every operation rounded to binary64 and in any order of summation, points projected onto the hull of the unit sphere or cube lie in the unit cube, those of a cube exactly on its hull, and the sampled points within the bounds.", "quantifier": "all rows, dimensions, orders of summation", "why_tests_cant": "Entries such as 1 + 2^-52 would need special rows.", "anchors": ["src/tranquilo/sample_points.py:452-466", "src/tranquilo/region.py:57-94"]}
{"id": "C159", "title": "The radius in binary64", "statement": "With every operation rounded to binary64, the updated radius lies in its limits, does not grow without a good rho, and after k rejected steps a radius of at most 2^k minimal radii is exactly the minimal one.", "quantifier": "all radii, rhos, step lengths, options, numbers of steps", "why_tests_cant": "All sequences of radii.", "anchors": ["src/tranquilo/adjust_radius.py:4-43"]}
{"id": "C160", "title": "Rounding does not change the sample size", "statement": "int(ceil(n / b) * b) with a rounded quotient is the smallest multiple of b that is at least n.", "quantifier": "all 0 <= n, 1 <= b with n + b <= 2^53", "why_tests_cant": "An error would need particular quotients of large numbers.", "anchors": ["src/tranquilo/process_arguments.py:368-369"]}
{"id": "C161", "title": "The search region contains the trust region", "statement": "Every point of a trust region is at most 17/8 radii away from the center, less than the default search radius factors 4.25 and 5, although corners of cubes are outside of the sphere.", "quantifier": "all dimensions, centers, radii, bounds", "why_tests_cant": "All dimensions; the ratio of the corner distance to the radius converges to sqrt(pi*e/2) only slowly.", "anchors": ["src/tranquilo/volume.py:1-81", "src/tranquilo/region.py:49-94", "src/tranquilo/options.py:74-75", "src/tranquilo/tranquilo.py:100-101"]}
{"id": "C162", "title": "No point of the last trust region is lost", "statement": "With the default radius options and search radius factors, every evaluated point in the trust region of one iteration is found by the search of the next iteration.", "quantifier": "all runs with samplers and solvers that stay in the region, all iterations", "why_tests_cant": "Losing a point would need an accepted step with a small rho in a corner of a cube.", "anchors": ["src/tranquilo/tranquilo.py:100-108", "src/tranquilo/adjust_radius.py:4-43", "src/tranquilo/history.py:204-211"]}
{"id": "C163", "title": "One iteration of a deterministic run", "statement": "In each iteration the candidate is the subproblem solution of the recorded model and region, rho is the ratio of actual to expected improvement, the candidate is accepted exactly if it is finite and improves by at least min_improvement, and otherwise point and value are kept; a candidate that is not finite gives rho = -inf.", "quantifier": "all runs with a deterministic criterion and the classic decider, all iterations", "why_tests_cant": "All histories of runs.", "anchors": ["src/tranquilo/tranquilo.py:96-288", "src/tranquilo/acceptance_decision.py:41-70", "src/tranquilo/acceptance_decision.py:242-302"]}
{"id": "C164", "title": "The trust region of the next iteration", "statement": "Each region is centered at the current point and has the bounds of the problem; its radius is the last one expanded, kept or shrunk as the recorded rho and the step demand, and moved into the limits; the first region has the initial radius.", "quantifier": "all runs without noise, all deciders, all iterations", "why_tests_cant": "All histories of runs.", "anchors": ["src/tranquilo/tranquilo.py:255-288", "src/tranquilo/adjust_radius.py:4-43"]}
{"id": "C165", "title": "Underdetermined quadratic fits interpolate", "statement": "With more points than a linear model needs and fewer than a quadratic one, fit_powell returns the quadratic through all points whose second order coefficients have the smallest sum of squares; linear functions are reproduced exactly.", "quantifier": "all dimensions, samples and values for which a quadratic through the points exists; exact least squares and QR solvers", "why_tests_cant": "The fit is only wrong for samples whose first n + 1 points happen to lie on a hyperplane.", "anchors": ["src/tranquilo/fit_models.py:297-461"]}
{"id": "C166", "title": "The underdetermined fit has the smallest Hessian", "statement": "Of all quadratics through the points the fitted one has the Hessian with the smallest Frobenius norm (as name and documentation say).", "quantifier": "all dimensions, samples and values for which a quadratic through the points exists; exact least squares and QR solvers", "why_tests_cant": "Tests compare with the same formula; a better quadratic has to be found.", "anchors": ["src/tranquilo/fit_models.py:342-461", "src/tranquilo/fit_models.py:471-477"]}
{"id": "C167", "title": "The line search always decides", "statement": "The line search decider returns a decision whatever values the criterion returns. (True for scalar and least squares criteria; for likelihoods it raises if and only if all points of the batch other than the candidate have the value NaN, which contributions +inf and -inf produce.)", "quantifier": "all histories, states, candidates, samplers, batch sizes > 1 and criterion results", "why_tests_cant": "Needs likelihood contributions with infinities of both signs at all line search points.", "anchors": ["src/tranquilo/acceptance_decision.py:93-239"]}
{"id": "C168", "title": "No improvement in the batch is lost", "statement": "If any point of a line search batch improves on the current value by at least min_improvement, a point at least as good is accepted. (True for least squares criteria and for scalar criteria without -inf; a value -inf at any point makes the decider reject the whole batch.)", "quantifier": "all histories, states, candidates, samplers, batch sizes > 1 and criterion results", "why_tests_cant": "All orderings of special values in a batch.", "anchors": ["src/tranquilo/acceptance_decision.py:186-239"]}
{"id": "C169", "title": "Accepted steps have a rho that reflects their improvement", "statement": "If a step is accepted, rho is at least min_improvement divided by the expected improvement, so that an accepted step with a large improvement does not shrink the trust region. (True for the deciders classic, naive_noisy and noisy; false for the line search, whose rho is the one of the subproblem solution and not of the accepted point.)", "quantifier": "all deciders, histories, states and criterion results with positive expected improvement", "why_tests_cant": "Needs a candidate that is worse than the current point in a batch with a better point.", "anchors": ["src/tranquilo/acceptance_decision.py:93-239", "src/tranquilo/acceptance_decision.py:242-372", "src/tranquilo/adjust_radius.py:4-43"]}
{"id": "C170", "title": "Points on the border of the trust region", "statement": "A candidate counts as being on the border of the trust region (which triggers the line search) if and only if its distance to the border is at most ten percent of the radius. (True for spheres; for cubes the tolerance is relative to the coordinates of the faces, so that far from the origin even the center of the region is on its border.)", "quantifier": "all regions and points", "why_tests_cant": "Needs parameters that are large compared to the radius next to a bound.", "anchors": ["src/tranquilo/acceptance_decision.py:499-527"]}
{"id": "C171", "title": "A rejected step shrinks the trust region", "statement": "If the candidate of an iteration is rejected, the next iteration has the same center and the radius times the shrinking factor, moved into the limits. (True if min_improvement is at most 0, as by default, and the expected improvement is not negative, which holds for all built-in subsolvers; with a positive min_improvement a candidate can be rejected with a large rho, and the next iteration starts from the same region.)", "quantifier": "all runs without noise with the classic decider, all iterations", "why_tests_cant": "All histories of runs and all rejections.", "anchors": ["src/tranquilo/tranquilo.py:212-288", "src/tranquilo/acceptance_decision.py:242-302", "src/tranquilo/adjust_radius.py:4-43"]}
{"id": "C172", "title": "The number of rejected steps is bounded by the accepted ones", "statement": "As long as the radius stays above its lower limit, it is at most the initial radius times the expansion factor for each accepted and the shrinking factor for each rejected step; with the default options 2^rejected < 10^6 * initial radius * 2^accepted.", "quantifier": "all runs without noise with the classic decider, min_improvement at most 0 and expected improvements >= 0, all iterations", "why_tests_cant": "Counts over whole runs of any length.", "anchors": ["src/tranquilo/tranquilo.py:96-288", "src/tranquilo/adjust_radius.py:4-43"]}
{"id": "C173", "title": "The number of accepted steps is bounded by the improvement", "statement": "The number of accepted steps times min_improvement is at most the total decrease of the current value; for a criterion bounded below and a positive min_improvement the number of accepted steps is bounded.", "quantifier": "all runs with a decider that does not evaluate the current point again, all iterations", "why_tests_cant": "Counts over whole runs of any length.", "anchors": ["src/tranquilo/tranquilo.py:212-288", "src/tranquilo/acceptance_decision.py:242-302"]}
{"id": "C174", "title": "Rounding does not change the acceptance decision", "statement": "In binary64 arithmetic a candidate evaluated once is accepted if and only if the current value minus its value is at least min_improvement. (True for min_improvement 0, the default; for other minima improvements of at least the minimum are accepted, but an improvement that is less than the minimum by under half a unit in the last place can be accepted as well.)", "quantifier": "all finite binary64 values", "why_tests_cant": "2^128 pairs of values; includes subnormal numbers and overflow of the difference.", "anchors": ["src/tranquilo/acceptance_decision.py:242-302"]}
{"id": "C175", "title": "rho in binary64 arithmetic", "statement": "rho is never NaN and has the sign of the improvement; it is the quotient of improvement and expected improvement up to a relative error of 2^-52 unless over- or underflow occurs; a rejected candidate shrinks the radius. (The strict sign can be lost by underflow.)", "quantifier": "all finite binary64 values, expected improvement >= 0", "why_tests_cant": "2^192 inputs.", "anchors": ["src/tranquilo/acceptance_decision.py:242-302", "src/tranquilo/acceptance_decision.py:418-425", "src/tranquilo/adjust_radius.py:4-43"]}
{"id": "C176", "title": "Means of function values in binary64 arithmetic", "statement": "The computed mean of the values at a point is the mean up to the rounding errors along the deepest path of additions and of the division, and lies between the smallest and the largest value. (The error bound is true for all orders of additions; the second part for one and two values. The mean of ten equal values can be larger than the values; the naive noisy decider then rejects a candidate on a constant criterion.)", "quantifier": "all finite binary64 values, all numbers of values, all orders of summation", "why_tests_cant": "All orders of summation and all values.", "anchors": ["src/tranquilo/acceptance_decision.py:268-300", "src/tranquilo/acceptance_decision.py:336-344"]}
{"id": "C177", "title": "Fitted models are exact for criteria they can represent", "statement": "If every residual is a polynomial of the degree of the vector model and no such polynomial other than zero vanishes on the model points, then the model fitted by ols, tranquilo (with positive penalties) or powell (with at least as many points as parameters) from the values at these points predicts the residuals exactly at every point, for both shapes of trust regions, and the aggregated scalar model predicts the function value (identity for scalar problems, sum for likelihoods with quadratic vector models, least squares with linear residual models). The ridge fitter does not have this property.", "quantifier": "all polynomials, all determining samples, all trust regions, all exact solvers of least squares problems", "why_tests_cant": "Quantifies over all polynomials and all samples; a test fits a few.", "anchors": ["src/tranquilo/fit_models.py:85-294", "src/tranquilo/fit_models.py:297-345", "src/tranquilo/aggregate_models.py:59-152", "src/tranquilo/models.py:48-80", "src/tranquilo/models.py:223-250"]}
{"id": "C178", "title": "Steps with exact models", "statement": "In a run with a deterministic criterion that the models can represent, every iteration whose model points determine the model has an exact model: the expected improvement is never negative and equals the actual improvement of the candidate, rho is 1 whenever the expected improvement is positive and minus infinity when it is zero, and the step is accepted iff the expected improvement is at least min_improvement.", "quantifier": "all runs with the built-in components and the classic decider, all polynomial criteria, all iterations", "why_tests_cant": "All runs and all criteria of the class.", "anchors": ["src/tranquilo/tranquilo.py:100-380", "src/tranquilo/solve_subproblem.py:136-215", "src/tranquilo/acceptance_decision.py:41-70", "src/tranquilo/acceptance_decision.py:242-300", "src/tranquilo/acceptance_decision.py:418-430"]}
{"id": "C179", "title": "Noisy runs succeed", "statement": "A noisy run with the built-in components, the noisy or naive noisy decider, at least two evaluations of the start vector and of candidates, and a criterion with finite values returns a result for every budget, start vector, radius and admissible bounds; no error is raised by the estimates of the noise, the acceptance step or the simulation of rho.", "quantifier": "all criteria with finite values, all options in range, all numbers of iterations, all results of the external functions", "why_tests_cant": "Errors show up only in rare constellations of a long random run.", "anchors": ["src/tranquilo/tranquilo.py:51-400", "src/tranquilo/estimate_variance.py:28-61", "src/tranquilo/acceptance_decision.py:305-385", "src/tranquilo/rho_noise.py:6-92", "src/tranquilo/adjust_n_evals.py:1-29"]}
{"id": "C180", "title": "Noisy runs need finite start values", "statement": "A noisy run that completes an iteration has only finite values among the evaluations of the start vector at the start; if the criterion is not finite at the start vector, every noisy run with at least one iteration raises an error (the variance is NaN and cannot be turned into a number of evaluations).", "quantifier": "all criteria, all options, all runs with the noisy decider", "why_tests_cant": "Quantifies over all runs; shows that the finiteness in C179 cannot be dropped.", "anchors": ["src/tranquilo/tranquilo.py:51-56", "src/tranquilo/estimate_variance.py:28-61", "src/tranquilo/acceptance_decision.py:305-385", "src/tranquilo/acceptance_sample_size.py:5-57"]}
{"id": "C181", "title": "Numbers of evaluations in noisy runs", "statement": "In a noisy run no point is evaluated more often than the maximum of the bounds of the acceptance step, of the noise adaptation and of the start options, although points are re-evaluated in several iterations; the point of every state was evaluated at least n_evals_at_start (start vector) or min_evals (accepted points) times.", "quantifier": "all runs with arbitrary components and the noisy decider, all points of the history", "why_tests_cant": "An invariant over all iterations and all points.", "anchors": ["src/tranquilo/tranquilo.py:51-56", "src/tranquilo/tranquilo.py:100-330", "src/tranquilo/acceptance_decision.py:305-385", "src/tranquilo/acceptance_sample_size.py:5-57", "src/tranquilo/adjust_n_evals.py:1-29"]}
{"id": "C182", "title": "Stopping rules only truncate a run", "statement": "Two runs that differ only in their stopping rules (larger max_iter, larger max_eval, smaller tolerances or convergence disabled) take the same steps: the states, points and values of the shorter run are a prefix of those of the longer run, errors of the shorter run are errors of the longer one, and with deciders that do not re-evaluate the longer run does not return a larger value.", "quantifier": "all pairs of runs with arbitrary components and stopping rules ordered like this", "why_tests_cant": "A statement about pairs of runs with arbitrary components.", "anchors": ["src/tranquilo/tranquilo.py:94-395", "src/tranquilo/tranquilo.py:484-511"]}
{"id": "C183", "title": "A run on a translated problem is the translated run", "statement": "Translating the start values, the bounds, the criterion and the components by a constant vector translates every point of the run and changes nothing else: values, radii, shapes, indices, model points, decisions, step lengths, messages, errors and the number of evaluations are the same.", "quantifier": "all runs with arbitrary components that commute with the translation, all dimensions, all translations", "why_tests_cant": "A statement about pairs of infinite families of runs; tests can only translate a few problems.", "anchors": ["src/tranquilo/tranquilo.py:94-395", "src/tranquilo/tranquilo.py:484-511", "src/tranquilo/acceptance_decision.py:48-527", "src/tranquilo/region.py:11-152", "src/tranquilo/history.py:9-230"]}
{"id": "C184", "title": "The built-in components commute with translations", "statement": "With the fitters, aggregators, subsolvers, samplers, filters, variance estimators and the noise simulation of tranquilo, a run on the translated problem is the translated run, if the relative change of the parameters is no stopping rule and line searches are used without bounds only.", "quantifier": "all choices of built-in components, external optimizers and random numbers, all criterion functions (also noisy ones), all bounds", "why_tests_cant": "The statement compares whole runs for all criteria and translations.", "anchors": ["src/tranquilo/fit_models.py:130-507", "src/tranquilo/models.py:14-295", "src/tranquilo/solve_subproblem.py:78-248", "src/tranquilo/sample_points.py:15-474", "src/tranquilo/filter_points.py:10-131", "src/tranquilo/estimate_variance.py:8-61", "src/tranquilo/rho_noise.py:8-92"]}
{"id": "C185", "title": "Padding rows of the history are never read", "statement": "The content of the rows that the history allocates for future points (NaN in the code) has no influence on a run with the built-in components: states, models, values, messages and errors do not depend on it.", "quantifier": "all runs with built-in components, all contents of the padding rows", "why_tests_cant": "A statement about all runs and all pairs of padding values; tests run with one padding value.", "anchors": ["src/tranquilo/history.py:14-210", "src/tranquilo/history.py:217-266", "src/tranquilo/tranquilo.py:94-395"]}
{"id": "C186", "title": "The numba version of gqtpar agrees with gqtpar", "statement": "For every symmetric Hessian, gradient, start, options and iteration limit gqtpar_fast and gqtpar either raise the same error or return solutions with the same model value, the same norm and the same success flag, in whatever order np.roots lists the two roots; the returned points agree as well.", "quantifier": "all dimensions, gradients, symmetric Hessians, starts, options and iteration limits, all orders of the roots", "why_tests_cant": "The two implementations differ in how the step to the sphere is computed and in ties; tests compare a few problems.", "anchors": ["src/tranquilo/subsolvers/gqtpar_fast.py:8-668", "src/tranquilo/subsolvers/gqtpar.py:22-616"]}
{"id": "C187", "title": "The numba version of Steihaug-Toint agrees with the numpy version", "statement": "minimize_trust_stcg_fast returns a vector exactly when minimize_trust_stcg does, and it is the same vector.", "quantifier": "all dimensions, gradients, Hessians, radii and pseudo-inverses", "why_tests_cant": "Universally quantified over all models.", "anchors": ["src/tranquilo/subsolvers/_steihaug_toint_fast.py:7-207", "src/tranquilo/subsolvers/_steihaug_toint.py:5-199"]}
{"id": "C188", "title": "The estimate of the smallest singular value is one from above", "statement": "For every upper triangular matrix U with positive diagonal the estimator solves U^T w = e for a vector e of signs, returns a unit vector z with |U z| = s > 0, so that s is never below the smallest singular value, and s |w| is at most the square root of n.", "quantifier": "all dimensions, all upper triangular matrices with positive diagonal", "why_tests_cant": "Universally quantified over all matrices; the estimate is used as a bound for the damping factor.", "anchors": ["src/tranquilo/subsolvers/gqtpar_fast.py:563-652", "src/tranquilo/subsolvers/gqtpar.py:442-495"]}
{"id": "C189", "title": "A run that reports a small gradient ends where the gradient is small", "statement": "With models that represent the criterion exactly, a run that stops because of the absolute (relative) gradient tolerance ends at a point where the gradient of the criterion is at most the tolerance. What is compared with the tolerance is the gradient at the center of the last region, the point before the last step, measured in half side lengths of the region: it is small whenever the region is small.", "quantifier": "all criteria that the models can represent, all dimensions, bounds, options and runs; for the failure all tolerances and slopes", "why_tests_cant": "Quantified over all runs; the scale of the linear terms is not visible in test cases with a radius near one.", "anchors": ["src/tranquilo/tranquilo.py:484-511", "src/tranquilo/fit_models.py:54-100"]}
{"id": "C190", "title": "Convex criteria are minimized exactly in finitely many iterations", "statement": "For a convex criterion with one minimizer and steps that are exact minimizers over the region, every run reaches the minimizer: once the initial radius, expanded once per iteration, has reached the size D of the level set of the start, at the latest, the current point is the minimizer, and it stays there; a run that lasts longer than that ends with the minimizer as its solution.", "quantifier": "all convex criteria, starts, dimensions, radii and options in the stated ranges, all solvers that make exact steps (first part: all solvers that make good steps in the stated sense), all runs", "why_tests_cant": "The statement quantifies over all criteria, solvers and options; the number of iterations has no fixed bound.", "anchors": ["src/tranquilo/tranquilo.py:94-382", "src/tranquilo/adjust_radius.py:4-43", "src/tranquilo/acceptance_decision.py:41-70", "src/tranquilo/acceptance_decision.py:242-302"]}
{"id": "C191", "title": "Runs with gqtpar converge linearly on quadratic criteria", "statement": "For criteria that the models can represent and that have one minimizer, an iteration in a ball that contains the minimizer in its interior, with determining model points and a gradient above gqtpar's zero threshold, accepts its step, and the step leaves at most the share k_hard of the distance between the current and the minimal value. Once the level set of the current point fits into the region, n such iterations reduce that distance by the factor k_hard to the power n, since the radius does not shrink.", "quantifier": "all linear least squares problems and (sums of) quadratic criteria with one minimizer, all dimensions, external functions that satisfy their specification, options in the stated ranges, numbers of iterations", "why_tests_cant": "The rate is a statement about all criteria and all numbers of iterations; the share lost to gqtpar's hard-case test is only visible in rare models.", "anchors": ["src/tranquilo/tranquilo.py:94-382", "src/tranquilo/subsolvers/gqtpar.py:22-145", "src/tranquilo/solve_subproblem.py:136-222", "src/tranquilo/fit_models.py:85-149", "src/tranquilo/aggregate_models.py:59-152"]}
{"id": "C192", "title": "gqtpar and the units of the criterion", "statement": "Multiplying a quadratic model by a positive number, as a change of the units of the criterion does, does not change the step that gqtpar returns, its success flag or its error, and multiplies the returned value of the model. This holds for models with one or two parameters. For three parameters it fails: the estimate of the singular vector of the factor compares a quantity that depends on the units with one that does not, so that one ninth of a positive definite model can have another returned step.", "quantifier": "all gradients and square matrices, all positive factors, start vectors, options and iteration limits", "why_tests_cant": "Tests compare the two solvers with reference solutions of fixed models; rescaling the model is not tested, and two parameters behave as expected.", "anchors": ["src/tranquilo/subsolvers/gqtpar.py:22-145", "src/tranquilo/subsolvers/gqtpar.py:442-495", "src/tranquilo/subsolvers/gqtpar_fast.py:606-652"]}
{"id": "C193", "title": "The conjugate gradient solver and the units of the problem", "statement": "Measuring the criterion and the parameters in other units (gradient times a, Hessian times a c, radius divided by c) makes minimize_trust_cg return the same step in the new units or the same error, provided the absolute tolerance is converted as well. Without an absolute tolerance the step does not depend on the units of the criterion; with the default tolerance 1e-8 it does: a model is minimized exactly and 1e-9 times the model not at all.", "quantifier": "all dimensions, gradients, Hessians, radii, tolerances, positive factors a and c", "why_tests_cant": "Tests use models whose numbers have the order of one; the effect of the absolute tolerance is invisible there.", "anchors": ["src/tranquilo/subsolvers/_conjugate_gradient.py:5-125"]}
{"id": "C194", "title": "The Steihaug-Toint solver and the units of the problem", "statement": "If the pseudo-inverse inverts factors and the norm of the gradient is at least 1e-45 in both units, measuring the criterion and the parameters in other units makes minimize_trust_stcg return the same step in the new units or the same error. The comparison of the squared gradient norm with the squared radius in the first step, which mixes units, has no effect: the loop that follows divides by zero.", "quantifier": "all dimensions above zero, gradients, Hessians, radii, positive factors a and c, pseudo-inverses with the stated property", "why_tests_cant": "The mixed comparison looks like a unit error; that no result depends on it needs an argument about all models.", "anchors": ["src/tranquilo/subsolvers/_steihaug_toint.py:5-199"]}
{"id": "C195", "title": "An iteration in a small region succeeds", "statement": "If the improvement promised by the subproblem solution is at least sigma times the radius, and the improvement realised differs from it by at most kappa times the squared radius, and kappa times the radius is at most (1 - rho_decrease) sigma, then the step is accepted, rho reaches rho_decrease, the criterion falls by at least rho_decrease sigma times the radius, and the radius of the next iteration is not smaller.", "quantifier": "all runs with the classic decider and a deterministic criterion, all iterations, all models, steps and constants meeting the conditions", "why_tests_cant": "Tests fix a handful of criteria; that no rejection can happen in a small region is a statement about all models with a given accuracy.", "anchors": ["src/tranquilo/tranquilo.py:96-288", "src/tranquilo/acceptance_decision.py:41-70", "src/tranquilo/acceptance_decision.py:242-302", "src/tranquilo/adjust_radius.py:4-43"]}
{"id": "C196", "title": "The number of iterations with accurate models", "statement": "While the models are accurate in the sense of C195 the radius does not fall below the minimum of the initial radius and shrinking_factor (1 - rho_decrease) sigma / kappa. Each iteration either lowers the criterion by rho_decrease sigma times that floor or shrinks the region, so the number of iterations is at most 2 M + N: M is the number of such decreases between the starting value and a lower bound of the criterion, N the number of shrinkings from the initial radius to the floor. This is the complexity bound of trust-region methods of order epsilon^-2.", "quantifier": "all runs with the classic decider and a deterministic criterion, all numbers of iterations, all radius options with expansion_factor * shrinking_factor <= 1 and min_radius below the floor", "why_tests_cant": "A bound on the number of iterations over all criteria cannot be sampled; tests observe single runs.", "anchors": ["src/tranquilo/tranquilo.py:96-288", "src/tranquilo/acceptance_decision.py:41-70", "src/tranquilo/adjust_radius.py:4-43", "src/tranquilo/options.py:132-143"]}
{"id": "C197", "title": "The accuracy of gqtpar's solutions", "statement": "If gqtpar reports success for a model whose gradient is above the zero threshold, the decrease of its solution is at least the share 1 - k_hard of the best decrease in the unit ball. Holds for passes and runs that factorize their own matrix; false for runs in which a pass reuses the factor of an earlier one.", "quantifier": "all dimensions, gradients, symmetric Hessians, start vectors, options with 0 <= k_hard <= 1, iteration limits, points of the ball", "why_tests_cant": "The optimum over a ball of every dimension is not computed by tests; the reuse of a stale factor shows only in runs of several passes.", "anchors": ["src/tranquilo/subsolvers/gqtpar.py:22-145", "src/tranquilo/subsolvers/gqtpar.py:262-385"]}
{"id": "C198", "title": "The Cauchy decrease of the conjugate gradient solver", "statement": "If the norm of the gradient exceeds the stopping tolerance, the step of minimize_trust_cg is at least as good as every point of the trust region on the steepest descent half-line; with curvature at most beta along the gradient the model falls by at least 1/2 |g| min(radius, |g| / beta).", "quantifier": "all dimensions, gradients, symmetric Hessians, definite or not, radii, tolerances", "why_tests_cant": "The Cauchy decrease is the basis of convergence proofs of trust-region methods and a statement about all models.", "anchors": ["src/tranquilo/subsolvers/_conjugate_gradient.py:5-125"]}
{"id": "C199", "title": "What the steps of gqtpar promise, and the iterations of runs with gqtpar", "statement": "With curvature at most beta along the gradient, a step of gqtpar in a ball has an expected improvement of at least (1 - k_hard) / 2 |g| min(1, |g| / beta) in the units of the unit ball and leaves the ball by at most the share k_easy. Hence, in runs with gqtpar whose models are accurate to second order in the radius and have gradients of at least eps and bounded curvature, the number of iterations is bounded in terms of eps. Runs of gqtpar are assumed to succeed without reuse of a factor.", "quantifier": "all dimensions, bounds, criteria with finite values, histories, options within the usual ranges, numbers of iterations", "why_tests_cant": "Iteration complexity is a statement about all runs; tests see single runs.", "anchors": ["src/tranquilo/solve_subproblem.py:136-237", "src/tranquilo/subsolvers/gqtpar.py:22-145", "src/tranquilo/tranquilo.py:27-480", "src/tranquilo/adjust_radius.py:4-43"]}
{"id": "C200", "title": "The norm constraint fallback states and solves the trust region problem", "statement": "robust_sphere_solver_norm_constraint asks scipy to minimize the model over exactly the unit ball: the bounds are implied by the constraint, the criterion is the model's prediction, the passed gradient (for symmetric square terms) and the passed Jacobian are the derivatives of the criterion and of the constraint, and scipy's answer is returned unchanged. With an optimizer that finds the best feasible point the solver returns a minimizer of the model over the unit ball.", "quantifier": "all dimensions, models with square terms, start vectors, optimizers", "why_tests_cant": "Derivatives and feasible sets are statements about all points; wrong derivatives often only slow an optimizer down.", "anchors": ["src/tranquilo/subsolvers/fallback_subsolvers.py:138-199"]}
{"id": "C201", "title": "What the other sphere fallbacks find with exact inner optimizers", "statement": "If the inner optimizer finds the best point of its box, the reparametrized solver returns a minimizer of the model over the unit ball, and the inscribed cube solver decreases the model by at least the n-th part of the largest possible decrease in the unit ball, by at least the part 1 / sqrt n along directions of nonnegative curvature. The n-th part cannot be improved in any dimension.", "quantifier": "all dimensions, models with square terms, start vectors, optimizers", "why_tests_cant": "The share is a comparison with the optimum over a continuum, for all models at once.", "anchors": ["src/tranquilo/subsolvers/fallback_subsolvers.py:11-38", "src/tranquilo/subsolvers/fallback_subsolvers.py:80-135"]}
{"id": "C202", "title": "The line plots show the value of every iteration", "statement": "The plots of radii, ratios, Fekete criteria and cluster ratios draw, over the number of each state, the value of that state (NaN for the first state where there is no sample), and the highlighted point has the value of the state that was asked for. It lies on the line for iterations counted from the start. Refuted for iterations counted from the end: the state is found, but its marker is drawn left of the line.", "quantifier": "all lists of states, all iterations the figure accepts, all histories", "why_tests_cant": "Figures are hardly ever compared with the numbers they show; negative iterations produce plausible figures.", "anchors": ["src/tranquilo/visualize.py:270-371", "src/tranquilo/visualize.py:423-434", "src/tranquilo/visualize.py:460-499"]}
{"id": "C203", "title": "The markers of the criterion plot lie on the criterion", "statement": "The criterion plot marks exactly the existing, new, discarded and current indices of the state, each at its own value on the line of the history. It raises IndexError exactly if one of these indices has no evaluation. For the states of runs with one evaluation per point it never raises, and every model point is marked exactly once.", "quantifier": "all histories and states; all runs with one evaluation per point", "why_tests_cant": "Wrong index sets still give a figure; the claim is about all states of all runs.", "anchors": ["src/tranquilo/visualize.py:119-198"]}
{"id": "C204", "title": "The plot of the sample points", "statement": "With two parameters the circle is drawn in the smallest box around the ball of the trust region and the points at their coordinates. With more parameters the heat map has an entry in [0, 1] for each pair of different parameters, 1 for parameters in an exact affine relation, none if a parameter does not vary. Refuted for one parameter: the plot reads a second coordinate of the center and always raises IndexError.", "quantifier": "all states and sample points, all numbers of parameters", "why_tests_cant": "Tests of plots use one or two examples; problems with one parameter are not among them.", "anchors": ["src/tranquilo/visualize.py:201-267"]}
{"id": "C205", "title": "The Cauchy decrease of trsbox", "statement": "The point returned by minimize_trust_trsbox is at least as good as every feasible multiple of the steepest descent direction (without the parameters at a bound that would leave the box); the decrease is at least half of step length times squared norm for each feasible step length the curvature allows, and it is zero exactly if that direction vanishes. This holds if the first step is longer than the threshold 1e-30 of the code. Refuted below the threshold: the center is returned although every feasible multiple may be better.", "quantifier": "all dimensions, gradients, symmetric matrices, radii and boxes around the center", "why_tests_cant": "A sufficient decrease is a statement about all points of a ray and all quadratic models; tests compare single solutions with tolerances.", "anchors": ["src/tranquilo/subsolvers/_trsbox.py:5-193", "src/tranquilo/subsolvers/_trsbox.py:195-349"]}
{"id": "C206", "title": "The Cauchy decrease of the Steihaug-Toint solver", "statement": "If the gradient lies in the range of the Hessian and the curvature along it is positive, minimize_trust_stcg returns a vector that is at least as good as every multiple of the gradient inside the trust region, also if it meets negative curvature later. Refuted for gradients outside the range of the Hessian: the direction is the projected gradient but the step length is that of the gradient, so the returned step can be worse than no step.", "quantifier": "all dimensions, gradients, symmetric matrices and positive radii; any pseudo-inverse that solves for the gradient", "why_tests_cant": "A sufficient decrease is a statement about all quadratic models; tests use positive definite or random Hessians, which are invertible.", "anchors": ["src/tranquilo/subsolvers/_steihaug_toint.py:5-146", "src/tranquilo/subsolvers/_steihaug_toint.py:182-199"]}
{"id": "C207", "title": "Orthogonal coordinates and the order of the residuals do not matter", "statement": "With a least squares solver that returns the solution of minimal norm, the fits by ols, tranquilo, ridge and powell (with the minimal Frobenius norm Hessian) are linear in the residuals. If the residuals of a least squares problem are replaced by an isometric linear image (a rotation, reflection, permutation, or an embedding into more residuals), the linear model fitted by ols, tranquilo or ridge and aggregated is the same function. The sum, information equality and least squares models do not depend on the order of the residuals.", "quantifier": "all samples, weights, finite residuals, penalties, isometries and permutations; collinear samples included", "why_tests_cant": "Tests compare single data sets; that minimal norm solutions of underdetermined systems are linear in the data is not visible in examples.", "anchors": ["src/tranquilo/fit_models.py:152-461", "src/tranquilo/aggregate_models.py:81-152"]}
{"id": "C208", "title": "The order of the sample points does not matter for the fit", "statement": "With a least squares solver that returns the solution of minimal norm, the coefficients fitted by ols, tranquilo and ridge are the same for every order of the sample points with their values and weights, also if the sample does not determine the model. Points that occur several times with the same value count like points weighted by the number of occurrences.", "quantifier": "all samples, values, weights, penalties, model types, permutations and repetitions", "why_tests_cant": "Tests use one order of distinct points.", "anchors": ["src/tranquilo/fit_models.py:152-294", "src/tranquilo/fit_models.py:499-507"]}
{"id": "C209", "title": "The order of the sample points and the fit of Powell", "statement": "With exact solvers, fit_powell returns the same coefficients for every order of the sample points, as long as the first n + 1 points of both orders do not lie on a hyperplane and some quadratic interpolates the sample. For at most n + 1 points, or as many points as the model has coefficients, the order never matters.", "quantifier": "all samples, values, dimensions and permutations", "why_tests_cant": "Tests use one order of the points. In an order whose first n + 1 points are on a hyperplane the fit of the same sample is a different one.", "anchors": ["src/tranquilo/fit_models.py:297-461"]}
{"id": "C210", "title": "The fit of Powell passes through the first points of the sample", "statement": "With an exact least squares solver and more points than a linear and fewer than a quadratic model needs, the quadratic fitted by fit_powell takes the sampled values at the first n + 1 points, if these do not lie on a hyperplane, even if no quadratic passes through the whole sample. A point that is sampled again later with another value is fitted by its first value; exchanging the two evaluations changes the fit.", "quantifier": "all samples, values, dimensions and decompositions", "why_tests_cant": "Tests fit samples of distinct points that a quadratic interpolates.", "anchors": ["src/tranquilo/fit_models.py:297-461"]}
{"id": "C211", "title": "Fitting averages and fitting all evaluations", "statement": "With an exact least squares solver, the fit (ols, tranquilo, ridge) of all evaluations of the sample points is the fit of the averages weighted by the numbers of evaluations. If all points are evaluated equally often, the unweighted fit of the averages by ols and tranquilo is the same, and the one by ridge if the penalties are multiplied by the number of evaluations; if not, the unweighted fit of the averages, which is the one the optimizer uses, is a different one.", "quantifier": "all samples, evaluations, numbers of evaluations, penalties and model types", "why_tests_cant": "Tests of noisy runs check convergence, and tests of the fit use one evaluation per point.", "anchors": ["src/tranquilo/fit_models.py:152-294", "src/tranquilo/fit_models.py:499-507", "src/tranquilo/history.py:181-196", "src/tranquilo/tranquilo.py:149-163"]}
{"id": "C212", "title": "Fitting the residuals of an old model", "statement": "With residualize=True and a spherical region, the fitter gets the differences between the values and the predictions of the old model, and the new model is, as a function of the parameters, the sum of the old model and the fitted one; the step succeeds whenever the fitter does and the old model has the form of the new one. With an exact least squares solver the new coefficients of ols and tranquilo fit the sample as well as possible and among those change the old coefficients least, measured by the penalties for tranquilo. If the sample determines the model, residualizing does not change the fit by ols.", "quantifier": "all old models, samples, values, weights, penalties, centers and radii", "why_tests_cant": "Tests of residualize compare the fit on one sample.", "anchors": ["src/tranquilo/fit_models.py:85-149", "src/tranquilo/fit_models.py:152-228"]}
{"id": "C213", "title": "An affine function added to the criterion is added to the model", "statement": "If an affine function of the parameters is added to the sampled values, the fitted model changes by exactly this function: for every residualized fit if it is added to the old model as well, for ols if the sample determines the model, and for fit_powell if the first n + 1 points are not on a hyperplane and a quadratic interpolates the sample. Otherwise it does not hold; in an undetermined fit already a constant added to the criterion changes the gradient of the model.", "quantifier": "all samples, values, weights, affine functions and dimensions", "why_tests_cant": "Tests use one criterion and samples that determine the model.", "anchors": ["src/tranquilo/fit_models.py:85-190", "src/tranquilo/fit_models.py:297-461"]}
{"id": "C214", "title": "The variance estimate depends on the noise only", "statement": "If the values of the criterion are multiplied by a number a and a constant that may differ from point to point is added to all evaluations of a point, the classic variance estimate is multiplied by a squared. In particular it does not depend on the values of a criterion without noise, only on the deviations of the evaluations at a point. For vector valued criteria the entry (p, q) of the covariance matrix is multiplied by the product of the factors of the components p and q.", "quantifier": "all pairs of histories with the same points in which a point in the region was evaluated twice, all radii and options with min_n_evals of at least two", "why_tests_cant": "A relation between two runs with different criteria.", "anchors": ["src/tranquilo/estimate_variance.py:_estimate_variance_classic"]}
{"id": "C215", "title": "The upper limits of the radius hold for every ratio", "statement": "The updated radius is at most max_radius, and with a finite max_radius_to_step_ratio it is at most the ratio times the length of the step. If min_radius is at most max_radius it is at least min_radius, unless the ratio times the length of the step is smaller; then it is equal to that.", "quantifier": "all radii, step lengths, rho values incl. +-inf and NaN, all option values", "why_tests_cant": "All real and special inputs.", "anchors": ["src/tranquilo/adjust_radius.py:adjust_radius"]}
{"id": "C216", "title": "The initial model is the value at the start point", "statement": "If the mean values at the start point are finite, the initial vector model predicts them at every point, the aggregated initial model predicts the criterion made of them (the value, the sum or the sum of squares), and both have the center and the radius of the initial trust region as shift and scale.", "quantifier": "all finite values, all regions, all aggregators (one value for the identity)", "why_tests_cant": "All numbers of parameters and residuals.", "anchors": ["src/tranquilo/tranquilo.py:_internal_tranquilo", "src/tranquilo/aggregate_models.py:get_aggregator"]}
