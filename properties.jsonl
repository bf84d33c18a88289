{"id": "C01", "title": "Survey slices tile the data vector", "statement": "For every survey, the slices handed out for its (source, receiver) pairs are contiguous, pairwise disjoint, appear in source-then-receiver order, have the receiver's number of data as length, and together cover exactly the indices 0..nD-1. Asking for the slice of one pair gives the same slice as the table of all slices, and asks for a pair not in the survey raise KeyError.", "quantifier": "all source lists, receiver lists and receiver sizes (including empty lists, zero-size receivers and a receiver object shared by several sources)", "why_tests_cant": "Tests use a handful of layouts; tiling must hold for any number of sources/receivers and any sizes.", "anchors": ["simpeg/survey.py:BaseSurvey.get_slice", "simpeg/survey.py:BaseSurvey.get_all_slices", "simpeg/survey.py:BaseSurvey.nD", "simpeg/survey.py:BaseSrc.vnD"]}
{"id": "C02", "title": "Indexed data behaves like a map from (source, receiver) to vectors", "statement": "After any sequence of data[src, rx] = v assignments, data[src, rx] returns the latest vector assigned to that pair, every other pair is unchanged, and tovec() is the concatenation of the per-pair vectors in survey order; fromvec(tovec()) changes nothing.", "quantifier": "all surveys with distinct pairs and all finite histories of assignments", "why_tests_cant": "A history property: it quantifies over every order of writes and reads.", "anchors": ["simpeg/data.py:Data.__setitem__", "simpeg/data.py:Data.__getitem__", "simpeg/data.py:Data.tovec", "simpeg/data.py:Data.fromvec"]}
{"id": "C03", "title": "nD always matches the slices", "statement": "At every moment of a survey's life, survey.nD equals the sum of the sizes of the receivers currently in the survey, so that it equals the total length of the slices.", "quantifier": "all histories of reading nD and reassigning source_list / receiver lists", "why_tests_cant": "Needs a history with a read before a mutation; the count is cached.", "anchors": ["simpeg/survey.py:BaseSurvey.vnD", "simpeg/survey.py:BaseSurvey.nD", "simpeg/survey.py:BaseSurvey.source_list"]}
{"id": "C04", "title": "Uncertainties follow the documented formula after any history of assignments", "statement": "standard_deviation is always sqrt(noise_floor^2 + (relative_error*|dobs|)^2) elementwise with a missing term counted as 0, is non-negative, raises TypeError exactly when both are unset; assigning standard_deviation = s makes the getter return s; negative values are rejected and leave the object unchanged.", "quantifier": "all data vectors, all scalar/array uncertainty values, all histories of setter calls", "why_tests_cant": "Setter interplay over unbounded histories and all real values.", "anchors": ["simpeg/data.py:Data.standard_deviation", "simpeg/data.py:Data.relative_error", "simpeg/data.py:Data.noise_floor"]}
{"id": "C05", "title": "L2 data misfit: value, gradient and Hessian agree", "statement": "The misfit is non-negative, zero exactly when predicted equals observed data; its deriv is the true gradient of its value, and deriv2 is a symmetric positive semidefinite Gauss-Newton operator equal to the true Hessian when the forward problem is linear.", "quantifier": "all simulations whose Jvec/Jtvec are an adjoint pair and the directional derivative of dpred, all weights, models and directions", "why_tests_cant": "Derivative tests check random directions only.", "anchors": ["simpeg/data_misfit.py:L2DataMisfit", "simpeg/data_misfit.py:BaseDataMisfit.W", "simpeg/data_misfit.py:BaseDataMisfit.residual"]}
{"id": "C06", "title": "The misfit uses the data's current uncertainties", "statement": "Whenever the misfit is evaluated (and W was not assigned by hand), the weights are the reciprocals of the data's standard deviations at that moment.", "quantifier": "all histories of evaluating the misfit and changing the uncertainties or the observed data", "why_tests_cant": "Cache staleness needs a particular history.", "anchors": ["simpeg/data_misfit.py:BaseDataMisfit.W", "simpeg/data.py:Data.standard_deviation"]}
{"id": "C07", "title": "Objective-function arithmetic means arithmetic", "statement": "For every expression built from objective functions with +, *, / and sum(), calling the result, its deriv and its deriv2 give the same number/vector as doing the arithmetic on the parts' values; nested and zero-multiplier terms included; ill-typed or ill-sized operands raise.", "quantifier": "all expression trees over objective functions, all models, all real multipliers", "why_tests_cant": "Unbounded expression nesting; flattening of sums is structural.", "anchors": ["simpeg/objective_function.py:BaseObjectiveFunction.__add__", "simpeg/objective_function.py:ComboObjectiveFunction.__call__", "simpeg/objective_function.py:ComboObjectiveFunction.deriv", "simpeg/objective_function.py:ComboObjectiveFunction.deriv2"]}
{"id": "C08", "title": "The combined weighting matrix reproduces the combined value", "statement": "For a combination of L2 terms with non-negative multipliers the stacked W satisfies ||W m||^2 = phi(m) for terms sharing the identity mapping.", "quantifier": "all lists of L2 terms and non-negative multipliers", "why_tests_cant": "Unbounded number of terms.", "anchors": ["simpeg/objective_function.py:ComboObjectiveFunction.W", "simpeg/objective_function.py:L2ObjectiveFunction"]}
{"id": "C09", "title": "Line search accepts only sufficient decrease and always terminates", "statement": "The step search evaluates the objective at most maxIterLS times; if it reports success, the accepted point satisfies the Armijo condition and, with bounds, is feasible; if it reports failure, none of the tried steps satisfied it.", "quantifier": "all objective functions, search directions, bounds and line-search constants", "why_tests_cant": "Quantifies over every objective function and step history.", "anchors": ["simpeg/optimization.py:Minimize.modifySearchDirection", "simpeg/optimization.py:StoppingCriteria"]}
{"id": "C10", "title": "The minimiser terminates and never returns a worse model", "statement": "minimize performs at most maxIter iterations, the objective is non-increasing over iterations when a decrease is required, the returned model is the last accepted one, and its value is at most the value of the projected starting model.", "quantifier": "all objective functions, directions (descent), starting models and options", "why_tests_cant": "Whole-run property over every objective function and history.", "anchors": ["simpeg/optimization.py:Minimize.minimize", "simpeg/optimization.py:Minimize.doEndIteration", "simpeg/optimization.py:Minimize.stoppingCriteria"]}
{"id": "C11", "title": "Bounds are never violated", "statement": "Projection puts every component in [lower, upper], is the identity on feasible points, is idempotent and non-expansive, and every iterate of a bounded minimiser is feasible; the active and inactive sets partition the components.", "quantifier": "all vectors and bounds with lower <= upper, all runs", "why_tests_cant": "Every reachable iterate of every run.", "anchors": ["simpeg/optimization.py:Bounded.projection", "simpeg/optimization.py:Bounded.activeSet", "simpeg/optimization.py:Bounded.bindingSet"]}
{"id": "C12", "title": "maxStep limits the step", "statement": "After scaling, no component of the search direction exceeds maxStep in absolute value.", "quantifier": "all search directions and all positive maxStep", "why_tests_cant": "Only special sign patterns fail.", "anchors": ["simpeg/optimization.py:Minimize.scaleSearchDirection"]}
{"id": "C13", "title": "BFGS directions are descent directions and use the latest curvature", "statement": "The BFGS inverse-Hessian approximation is symmetric positive definite after any history of accepted steps, so the search direction is a descent direction; the most recent stored (step, gradient change) pair satisfies the secant equation.", "quantifier": "all histories of stored pairs, all gradients", "why_tests_cant": "Unbounded history and recursion depth.", "anchors": ["simpeg/optimization.py:BFGS.bfgsrec", "simpeg/optimization.py:BFGS.bfgs", "simpeg/optimization.py:BFGS._doEndIteration_BFGS"]}
{"id": "C14", "title": "Projected Gauss-Newton CG directions respect the bound set", "statement": "The direction computed by ProjectedGNCG is zero on components whose bound is binding, the inner iteration runs at most cg_maxiter times, the direction goes downhill, and it solves the Newton system on the free components when the inner iteration is run to convergence.", "quantifier": "all Hessians, gradients, bounds and positions", "why_tests_cant": "All matrices and active-set patterns.", "anchors": ["simpeg/optimization.py:ProjectedGNCG.findSearchDirection"]}
{"id": "C15", "title": "Newton root finding returns a root or says so", "statement": "NewtonRoot.root either returns a point whose residual norm is below tol, or stopped at its iteration limit, or returns None after an exhausted line search; residual norms never increase along the accepted points.", "quantifier": "all residual functions, Jacobians and starting points", "why_tests_cant": "Whole-run property for arbitrary functions.", "anchors": ["simpeg/optimization.py:NewtonRoot.root"]}
{"id": "C16", "title": "A physical property has exactly one definition at a time", "statement": "After any sequence of setting and deleting a property, its reciprocal, and their mappings, at most one of (value, reciprocal value, mapping, reciprocal mapping) is set, and it is the last one set.", "quantifier": "all histories of set/delete operations on a reciprocal pair of invertible properties", "why_tests_cant": "Unbounded histories over four coupled attributes.", "anchors": ["simpeg/props.py:PhysicalProperty", "simpeg/props.py:Mapping", "simpeg/props.py:Reciprocal"]}
{"id": "C17", "title": "Reciprocal properties are reciprocal", "statement": "Whenever a property and its reciprocal can both be read, their product is 1 elementwise, whichever of the four attributes defines them, and the derivative of the reciprocal is -1/p^2 times the derivative of the property.", "quantifier": "all histories, all non-zero values, all models", "why_tests_cant": "All values and histories.", "anchors": ["simpeg/props.py:PhysicalProperty", "simpeg/props.py:Reciprocal", "simpeg/props.py:Derivative"]}
{"id": "C18", "title": "Cached model-dependent quantities are never stale", "statement": "After any sequence of model assignments and reads of cached quantities, every cached quantity read equals the one computed from the current model.", "quantifier": "all histories of model assignments and cached reads", "why_tests_cant": "Staleness depends on the relation between consecutive models.", "anchors": ["simpeg/props.py:HasModel.model", "simpeg/props.py:_delete_on_model_update"]}
{"id": "C19", "title": "A rejected model leaves everything unchanged", "statement": "If assigning a model raises (wrong length, missing maps, nested object rejects it), the object's model and those of its nested objects are what they were before the assignment.", "quantifier": "all nestings of objects, all models, all failure points", "why_tests_cant": "Every failure point in every nesting.", "anchors": ["simpeg/props.py:HasModel.model", "simpeg/props.py:NestedModeler"]}
{"id": "C20", "title": "Map composition is function composition with the chain rule", "statement": "For every chain of maps multiplied together, shape is (first output, last input), incompatible shapes raise, applying the product equals applying the maps right to left, deriv is the product of derivs at the right intermediate points, and deriv(m, v) equals deriv(m) @ v.", "quantifier": "all chains of maps of any length, all models and vectors", "why_tests_cant": "Unbounded chain length.", "anchors": ["simpeg/maps/_base.py:IdentityMap.__mul__", "simpeg/maps/_base.py:ComboMap"]}
{"id": "C21", "title": "Sum of maps: value and derivative add, arguments are untouched", "statement": "A SumMap's value is the sum of its parts' values, its deriv(m, v) the sum of the parts' derivs applied to v, and the caller's vectors are not modified.", "quantifier": "all lists of maps, all models and vectors", "why_tests_cant": "Aliasing depends on which parts return their argument.", "anchors": ["simpeg/maps/_base.py:SumMap"]}
{"id": "C22", "title": "Invertible maps round-trip", "statement": "inverse(transform(m)) = m, and transform(inverse(u)) = u for u in the range, for exp, reciprocal, logistic sigmoid, susceptibility, relative permeability, weighting, effective-susceptibility and injection maps.", "quantifier": "all models (all real vectors in the domain)", "why_tests_cant": "All real inputs.", "anchors": ["simpeg/maps/_property_maps.py", "simpeg/maps/_injection.py:InjectActiveCells"]}
{"id": "C23", "title": "Property-map derivatives are the true derivatives", "statement": "The diagonal entries returned by deriv of exp, log, reciprocal, logistic, chi and relative-permeability maps are the derivatives of the transform.", "quantifier": "all models in the domain", "why_tests_cant": "Derivative tests sample.", "anchors": ["simpeg/maps/_property_maps.py"]}
{"id": "C24", "title": "Projection, wires, injection and surjection maps route every entry correctly", "statement": "Wires partition the model into named contiguous pieces that reassemble to it; projection picks the indexed entries; injection places active values and fills the others with the inactive value; vertical-1D and 2D-to-3D surjections repeat the right entry in every cell; each deriv is the matrix of the linear part.", "quantifier": "all sizes, index lists and models", "why_tests_cant": "All index patterns and sizes.", "anchors": ["simpeg/maps/_base.py:Wires", "simpeg/maps/_base.py:Projection", "simpeg/maps/_injection.py:InjectActiveCells", "simpeg/maps/_surjection.py"]}
{"id": "C25", "title": "Validated numbers are within their declared bounds", "statement": "A value accepted by validate_float / validate_integer is within the declared (inclusive or exclusive) bounds, and everything outside raises.", "quantifier": "all values (including nan, infinities) and all bounds", "why_tests_cant": "Special float values and all bounds.", "anchors": ["simpeg/utils/code_utils.py:validate_float", "simpeg/utils/code_utils.py:validate_integer"]}
{"id": "C26", "title": "Validated strings, shapes and active cells are canonical", "statement": "validate_string returns the canonical name of the alias group; validate_ndarray_with_shape accepts exactly matching shapes; validate_active_indices returns a boolean mask of the right length true exactly at the given indices.", "quantifier": "all inputs, alias lists, shapes, index arrays", "why_tests_cant": "All inputs.", "anchors": ["simpeg/utils/code_utils.py:validate_string", "simpeg/utils/code_utils.py:validate_ndarray_with_shape", "simpeg/utils/code_utils.py:validate_active_indices"]}
{"id": "C27", "title": "Fields storage is a map from (source, field name) to columns", "statement": "After any sequence of fields[src, name] = v, reading returns the latest value for that pair, other pairs are untouched, aliases cannot be written, and unknown names raise.", "quantifier": "all surveys, field tables and histories", "why_tests_cant": "History property.", "anchors": ["simpeg/fields.py:Fields.__setitem__", "simpeg/fields.py:Fields.__getitem__"]}
{"id": "C28", "title": "Time fields keep times separate", "statement": "Writing one time slot of a time-dependent field leaves every other time slot, source and field unchanged and reads back exactly.", "quantifier": "all surveys, time indices and histories", "why_tests_cant": "History property.", "anchors": ["simpeg/fields.py:TimeFields"]}
{"id": "C29", "title": "Beta cooling has a closed form", "statement": "After k iterations under BetaSchedule, beta equals beta0 / coolingFactor^(number of multiples of coolingRate among 1..min(k, maxIter-1)); it is always positive and never increases when coolingFactor >= 1.", "quantifier": "all iteration counts, rates and factors", "why_tests_cant": "All iteration counts.", "anchors": ["simpeg/directives/_directives.py:BetaSchedule.endIter"]}
{"id": "C30", "title": "Target misfit stops exactly when reached", "statement": "The inversion is told to stop at the first iteration end whose data misfit is below chi factor times the number of data, and not before.", "quantifier": "all misfit histories, chi factors and data counts", "why_tests_cant": "All histories.", "anchors": ["simpeg/directives/_directives.py:TargetMisfit"]}
{"id": "C31", "title": "IRLS bookkeeping", "statement": "Before the starting misfit is reached all norms are 2; when it is reached the user's norms are restored and thresholds set; afterwards at most max_irls_iterations reweightings happen, thresholds decrease geometrically, and beta moves up when the misfit is below its target band, down when above, and stays inside the band.", "quantifier": "all misfit and model-norm histories, all options", "why_tests_cant": "State machine over unbounded histories.", "anchors": ["simpeg/directives/_regularization.py:UpdateIRLS"]}
{"id": "C32", "title": "Sensitivity weights are positive and normalised", "statement": "With maximum normalisation every weight is in [threshold, 1] and the largest is exactly 1; with minimum normalisation the smallest is exactly 1.", "quantifier": "all sensitivities not identically zero, all threshold values and methods", "why_tests_cant": "All inputs.", "anchors": ["simpeg/directives/_directives.py:UpdateSensitivityWeights.update"]}
{"id": "C33", "title": "Warm-started fields belong to the model", "statement": "Whenever the inverse problem evaluates the objective, the fields it uses were computed from the model it is evaluating.", "quantifier": "all sequences of evaluations and warm-start insertions, with models compared by identity", "why_tests_cant": "History/aliasing property.", "anchors": ["simpeg/inverse_problem.py:BaseInvProblem.getFields", "simpeg/inverse_problem.py:BaseInvProblem.evalFunction"]}
{"id": "C34", "title": "Each misfit sees its own fields", "statement": "In an inverse problem with several misfit terms, every misfit term with a simulation is evaluated with the fields of that simulation.", "quantifier": "all combinations of misfit terms", "why_tests_cant": "Only mixed lists expose misalignment.", "anchors": ["simpeg/inverse_problem.py:BaseInvProblem.getFields", "simpeg/objective_function.py:ComboObjectiveFunction.__call__"]}
{"id": "C35", "title": "Meta simulations are the stacked (or summed) simulations", "statement": "MetaSimulation.dpred is the concatenation of the parts' data at the mapped models, SumMetaSimulation's the sum, RepeatedSimulation's the concatenation over mappings; Jvec and Jtvec are adjoint, and getJtJdiag is the diagonal of J^T W^2 J for selection-type mappings.", "quantifier": "all lists of simulations and mappings, models and vectors", "why_tests_cant": "Unbounded lists.", "anchors": ["simpeg/meta/simulation.py"]}
{"id": "C36", "title": "Parallel meta simulation equals the serial one", "statement": "Splitting over any number of processes partitions the simulations in order and yields the same dpred, Jvec and Jtvec as the serial version for every schedule of the workers; each call receives the reply to its own request, also after a worker raised an error.", "quantifier": "all process counts, simulation lists, interleavings, call histories and worker failures", "why_tests_cant": "Schedules and crash points.", "anchors": ["simpeg/meta/multiprocessing.py"]}
{"id": "C37", "title": "Source waveforms are consistent with their derivatives", "statement": "Waveforms are continuous where documented, are 0 before they start and after they end, reach 1 at the peak, and eval_deriv is the derivative of eval at every time that is not a node.", "quantifier": "all times and all waveform parameters", "why_tests_cant": "All real times.", "anchors": ["simpeg/electromagnetics/time_domain/sources.py"]}
{"id": "C38", "title": "Coordinate conversions round-trip", "statement": "spherical2cartesian inverts cartesian2spherical; dip/azimuth vectors are unit vectors; coterminal returns the equivalent angle in [-pi, pi).", "quantifier": "all vectors and angles", "why_tests_cant": "All real inputs.", "anchors": ["simpeg/utils/mat_utils.py"]}
{"id": "C39", "title": "Model builders assign the documented values", "statement": "A cell gets the block value exactly when its centre lies in the closed block whichever opposite corners are given, the sphere exactly when it is inside, and the value of the layer containing it whichever way the layers are listed; the two-layer model puts the top value above the interface.", "quantifier": "all meshes, corners, layers and values", "why_tests_cant": "All geometries.", "anchors": ["simpeg/utils/model_builder.py"]}
{"id": "C40", "title": "Sparse-norm weights", "statement": "IRLS weights are positive and finite, equal the scale for p = 2, decrease with the model amplitude, and reproduce the Lp approximation m^2 * w = m^2/(m^2+eps^2)^(1-p/2) when unscaled.", "quantifier": "all models, norms p in [0,2], thresholds eps > 0", "why_tests_cant": "All real inputs.", "anchors": ["simpeg/regularization/sparse.py:BaseSparse.get_lp_weights"]}
{"id": "C41", "title": "Regularisation weights are the product of the registered weights", "statement": "After any sequence of set_weights / remove_weights, the regularisation evaluates with the product of exactly the weights currently registered, its deriv is the gradient of its value and deriv2 is symmetric positive semidefinite.", "quantifier": "all histories of weight changes, models and directions", "why_tests_cant": "History plus all vectors.", "anchors": ["simpeg/regularization/base.py:BaseRegularization"]}
{"id": "C42", "title": "Alpha and length-scale views agree", "statement": "Setting a length scale and reading it back returns its absolute value whatever the base length; alpha = (length_scale * base_length)^2; multipliers follow the alphas; negative alphas are rejected.", "quantifier": "all values and histories", "why_tests_cant": "All reals.", "anchors": ["simpeg/regularization/base.py:WeightedLeastSquares"]}
{"id": "C43", "title": "Probing is exact for separated matrices", "statement": "estimate_diagonal with probing returns, for every matrix, entry i = sum of A[i,j] over j congruent to i modulo k; hence it is exact for k >= n and for matrices of bandwidth below k; the default k works.", "quantifier": "all square matrices and all k", "why_tests_cant": "All sizes.", "anchors": ["simpeg/utils/mat_utils.py:estimate_diagonal"]}
{"id": "C44", "title": "Linear simulation: data, Jacobian and adjoint agree", "statement": "dpred(m) = G f(m), getJ(m) v = Jvec(m, v), <Jvec(m,v), w> = <v, Jtvec(m,w)>, Jvec is the directional derivative of dpred.", "quantifier": "all G, mappings, models and vectors", "why_tests_cant": "All inputs.", "anchors": ["simpeg/simulation.py:LinearSimulation"]}
{"id": "C45", "title": "Time stepping is coherent", "statement": "times are t0 plus the cumulative time steps, nT is their number, after any sequence of setting t0/time_steps; the compact (dt, n) form unpacks to the repeated list.", "quantifier": "all histories and step lists", "why_tests_cant": "Caching history.", "anchors": ["simpeg/simulation.py:BaseTimeSimulation"]}
{"id": "C46", "title": "Cached receiver projections match the arguments", "statement": "With projection storage on, getP returns the projection for the mesh, grid and times requested now, equal to the freshly computed one.", "quantifier": "all histories of getP calls and location changes", "why_tests_cant": "Cache key history.", "anchors": ["simpeg/survey.py:BaseRx.getP", "simpeg/survey.py:BaseTimeRx.getP"]}
{"id": "C47", "title": "Receiver and source lookups work", "statement": "get_source_indices / get_receiver_indices return the positions of the given objects in the survey order, for every survey.", "quantifier": "all surveys and lists", "why_tests_cant": "All inputs.", "anchors": ["simpeg/survey.py:BaseSurvey.get_source_indices", "simpeg/survey.py:BaseSurvey.get_receiver_indices"]}
{"id": "C48", "title": "Distance weighting does not depend on the engine", "statement": "The numba and scipy engines return the same weights, which lie in (0, 1] with maximum 1 and decrease with distance.", "quantifier": "all cells, reference points, exponents and thresholds > 0", "why_tests_cant": "All inputs.", "anchors": ["simpeg/utils/model_utils.py:distance_weighting"]}
{"id": "C49", "title": "Mixing-law bounds are ordered", "statement": "Wiener lower <= Hashin-Shtrikman lower <= Hashin-Shtrikman upper <= Wiener upper, and all lie between the two conductivities.", "quantifier": "all positive conductivities and volume fractions in [0,1]", "why_tests_cant": "All reals.", "anchors": ["simpeg/maps/_property_maps.py:SelfConsistentEffectiveMedium"]}
{"id": "C50", "title": "Counters account for every call", "statement": "After any well-nested sequence of counted and timed calls the counter holds exactly the number of calls per name and one closed interval per timed call.", "quantifier": "all call sequences, including nested, recursive and raising calls", "why_tests_cant": "All histories.", "anchors": ["simpeg/utils/counter_utils.py:Counter"]}
{"id": "C51", "title": "Spherical maps and the projection of angles", "statement": "SphericalSystem: deriv(m) is the derivative of the transform at the model passed now, whatever was asked before; inverse recovers a model with angles in their principal range; ProjectSphericalBounds puts the angles in their principal range without changing the vectors.", "quantifier": "all models, histories of deriv calls and numbers of iterations", "why_tests_cant": "All real models and cache histories.", "anchors": ["simpeg/maps/_base.py:SphericalSystem", "simpeg/directives/_directives.py:ProjectSphericalBounds"]}
{"id": "C53", "title": "Assigning sparse norms is all or nothing", "statement": "After any sequence of assignments of Sparse.norms, including ones that raise, every term has the norm given by the last accepted assignment; an assignment with a wrong length or a value outside [0, 2] raises and changes nothing.", "quantifier": "all histories of assignments and all values", "why_tests_cant": "needs induction over histories with failing assignments", "anchors": ["simpeg/regularization/sparse.py:Sparse.norms", "simpeg/regularization/sparse.py:BaseSparse.norm"]}
{"id": "C54", "title": "Angle smoothness ignores whole turns", "statement": "With units 'radian' a smoothness term has the same value for models whose entries differ by whole turns, and its deriv is the gradient of its value away from differences of half a turn; this holds for first and second order.", "quantifier": "all meshes, weights, models and integers of turns", "why_tests_cant": "all models and all numbers of turns; derivatives are limits", "anchors": ["simpeg/regularization/base.py:SmoothnessFirstOrder.f_m", "simpeg/regularization/base.py:SmoothnessSecondOrder.f_m", "simpeg/utils/mat_utils.py:coterminal"]}
{"id": "C52", "title": "Largest-eigenvalue estimates", "statement": "eigenvalue_by_power_iteration returns, for a single function or a weighted combination, a value between the smallest and largest eigenvalue of the combined second derivative; it is exact when started on an eigenvector, does not decrease with the number of iterations and converges to the largest eigenvalue in absolute value, and scales with the multipliers.", "quantifier": "all matrices, multipliers, starting vectors and numbers of iterations", "why_tests_cant": "Convergence is a limit over all iteration counts and all starting vectors.", "anchors": ["simpeg/utils/mat_utils.py:eigenvalue_by_power_iteration"]}
{"id": "C55", "title": "Initial scalings", "statement": "The estimated beta is beta0_ratio times a quotient of eigenvalues, so it scales with the misfit and against the regularization; a beta estimate from derivatives is finite; smoothness constants are set so that every smoothness term's eigenvalue is its ratio times that of the smallness term, also when initialized again; several misfits get positive scales with sum 1 that balance their eigenvalues computed with the requested number of iterations; the joint schedule keeps the scales positive, summing to 1 and within the requested bounds, and gives more relative weight to unfit misfits.", "quantifier": "all misfits, regularizations, models, ratios and iteration histories", "why_tests_cant": "All inputs and all histories of iterations.", "anchors": ["simpeg/directives/_directives.py:BetaEstimate_ByEig", "simpeg/directives/_directives.py:BetaEstimateMaxDerivative", "simpeg/directives/_directives.py:AlphasSmoothEstimate_ByEig", "simpeg/directives/_directives.py:ScalingMultipleDataMisfits_ByEig", "simpeg/directives/_directives.py:JointScalingSchedule"]}
{"id": "C57", "title": "Sinusoid kernels follow their parameters", "statement": "G of an ExponentialSinusoidSimulation always is the matrix of trapezoidal integrals of the kernels for the current p, q, j0, jn, n_kernels and mesh.", "quantifier": "all parameters and histories of assignments and reads", "why_tests_cant": "Cache histories and all real parameters.", "anchors": ["simpeg/simulation.py:ExponentialSinusoidSimulation"]}
{"id": "C56", "title": "Self-consistent effective medium", "statement": "The effective medium map returns, for fractions in [0,1], conductivities between those of the phases and within the tolerance of the unique self-consistent one, whatever the object was used for before; its inverse recovers the fractions and its derivative is that of the self-consistent conductivity.", "quantifier": "all positive conductivities and aspect ratios, all fractions, all histories of transforms and assignments", "why_tests_cant": "All reals, fixed point of an iteration, cached tolerance and starting point.", "anchors": ["simpeg/maps/_property_maps.py:SelfConsistentEffectiveMedium"]}
{"id": "C58", "title": "Joint regularisations are consistent functions", "statement": "For linear correspondence, cross gradient, joint total variation and full-gradient smoothness: deriv is the gradient of the value and deriv2 its Hessian (the approximate cross-gradient Hessian excepted), deriv2 as a matrix and deriv2 with a vector agree, Hessians are symmetric, values are never negative, the approximate cross-gradient, total-variation and correspondence Hessians are positive semidefinite, models with the same structure have zero cross gradient, normalised cross gradients lie in [-1, 1], and anisotropic weights act along the given directions, for all models, meshes, weights and numbers of models.", "quantifier": "all models, vectors, gradient and averaging matrices, weights, directions and epsilons", "why_tests_cant": "the tests check derivatives at random points on one mesh within a tolerance; agreement must hold at every model, and semidefiniteness is a statement over all vectors", "anchors": ["simpeg/regularization/correspondence.py: LinearCorrespondence", "simpeg/regularization/cross_gradient.py: CrossGradient", "simpeg/regularization/jtv.py: JointTotalVariation", "simpeg/regularization/_gradient.py: SmoothnessFullGradient"]}
{"id": "C59", "title": "Parametric maps: derivatives, values and coordinates", "statement": "For the parametric maps (circle, polynomial and spline interface, layer, block, ellipsoid, casing in a layer, block in a layer) the matrix returned by deriv is the derivative of the values returned by the map at every model, the values stay between the physical values given as parameters, the parameters play the documented roles, and the map refers to the cells that are active when it is evaluated, whatever was called before.", "quantifier": "all models of the right length, slopes, cells, polynomial orders, interpolations linear in their values, and all histories of evaluations and assignments of active cells", "why_tests_cant": "The derivative tests use one seed model per map on one mesh, mostly symmetric, and never change active cells or call deriv before the map itself.", "anchors": ["simpeg/maps/_parametric.py: ParametricCircleMap, ParametricPolyMap, ParametricSplineMap, ParametricLayer, ParametricBlock, ParametricEllipsoid, ParametricCasingAndLayer, ParametricBlockInLayer"]}
{"id": "C60", "title": "Straight-ray traveltimes integrate slowness along the ray", "statement": "For a straight-ray survey on a 2-D tensor mesh, every entry of the simulation's matrix is the length of the ray inside that cell; the lengths of a ray inside the mesh add up to the source-receiver distance, so traveltimes are between the smallest and largest slowness times the distance; exchanging source and receiver changes nothing; predicted data are the matrix times the slowness, Jvec is their derivative and Jtvec its adjoint, and they always correspond to the current mesh and survey.", "quantifier": "all meshes, rays, slowness mappings, models and call histories", "why_tests_cant": "Tests check one mesh and a few rays; the geometric case analysis (direction signs, axis-parallel rays, rays touching edges, ends inside cells) and call histories are unbounded.", "anchors": ["simpeg/seismic/straight_ray_tomography/simulation.py:_lengthInCell", "simpeg/seismic/straight_ray_tomography/simulation.py:_lineintegral", "simpeg/seismic/straight_ray_tomography/simulation.py:Simulation2DIntegral"]}
{"id": "C61", "title": "Property mass matrices always belong to the current property", "statement": "After any sequence of assignments (properties, mappings, model, mesh) and reads, the mass matrices a PDE simulation reports for a physical property (cell, node, face and edge versions, and their inverses) are those of the property's current value on the current mesh; their derivatives with respect to the model are the Jacobians of u -> M(m)u and u -> M(m)^-1 u; the transposed form is the adjoint and the matrix form agrees; without a mapping they are zero.", "quantifier": "all meshes (linear inner products), mappings, models, fields and histories of assignments, reads and derivative calls", "why_tests_cant": "Tests check derivatives on one freshly built simulation; staleness depends on the order of assignments and reads, of which there are infinitely many.", "anchors": ["simpeg/base/pde_simulation.py:with_property_mass_matrices", "simpeg/base/pde_simulation.py:_inner_mat_mul_op", "simpeg/base/pde_simulation.py:BasePDESimulation", "simpeg/base/pde_simulation.py:BaseElectricalPDESimulation", "simpeg/base/pde_simulation.py:BaseMagneticPDESimulation"]}
{"id": "C62", "title": "Soil relations follow the published formulas with exact derivatives", "statement": "The Haverkamp and van Genuchten water-retention and conductivity objects return the published formula for negative heads and the saturated value otherwise; water content stays between residual and saturated values, conductivity between 0 and its saturated value, and both increase with the head; derivM is the Jacobian with respect to the model for any choice of mapped parameters, and derivU the Jacobian with respect to the head; the factory functions hand every named parameter to both relations and refuse unknown ones.", "quantifier": "all heads, parameter values, choices of scalar/array/mapped parameters, models and keyword arguments", "why_tests_cant": "Tests compare derivatives numerically at a few random points of one soil; correctness of the long symbolic expressions at every point, and behaviour at saturation, cannot be sampled.", "anchors": ["simpeg/flow/richards/empirical.py:Haverkamp_theta", "simpeg/flow/richards/empirical.py:Haverkamp_k", "simpeg/flow/richards/empirical.py:Vangenuchten_theta", "simpeg/flow/richards/empirical.py:Vangenuchten_k", "simpeg/flow/richards/empirical.py:_partition_args"]}
{"id": "C63", "title": "Richards simulation: fields, data and sensitivity products", "statement": "For every model the fields start at the initial conditions, have one head more than time steps, and each head either satisfies the discretised equation to the tolerance or the root finder used up its iterations. Jvec is the derivative of the data with respect to the model, Jfull times a vector agrees with Jvec, Jtvec is its adjoint, the matrix of the Newton step is the Jacobian of the residual, and results depend only on the arguments.", "quantifier": "all meshes (operators of fitting sizes), relations differentiable at the heads, models, step lists, receivers, exact solvers, and histories of stored models", "why_tests_cant": "A derivative test checks a few random models; the block substitution must be right for every number of steps, every combination of receivers and every previously stored model.", "anchors": ["simpeg/flow/richards/simulation.py SimulationNDCellCentered.fields", "simpeg/flow/richards/simulation.py SimulationNDCellCentered.getResidual", "simpeg/flow/richards/simulation.py SimulationNDCellCentered.diagsJacobian", "simpeg/flow/richards/simulation.py SimulationNDCellCentered.Jvec", "simpeg/flow/richards/simulation.py SimulationNDCellCentered.Jtvec", "simpeg/flow/richards/simulation.py SimulationNDCellCentered.Jfull", "simpeg/flow/richards/receivers.py Pressure", "simpeg/flow/richards/receivers.py Saturation", "simpeg/flow/richards/survey.py Survey.deriv"]}
{"id": "C64", "title": "DC resistivity: fields, data and sensitivity products", "statement": "For every model, survey and formulation, the fields of each source are the unique solution of its system, the data are the potential differences of those solutions (or apparent resistivities), Jvec is the derivative of the data with respect to the model, Jtvec is its adjoint, getJ is the matrix of both, storing the sensitivity changes nothing, getJtJdiag is the diagonal of J^T W^T W J, and results do not depend on earlier calls.", "quantifier": "all meshes (operators of fitting sizes), differentiable property mappings, models, surveys of poles and dipoles, exact solvers, and histories of calls", "why_tests_cant": "Derivative tests run on a few meshes and models with fresh objects; caches of the factorisation, the source term and the sensitivity can go stale in any order of calls.", "anchors": ["simpeg/electromagnetics/static/resistivity/simulation.py BaseDCSimulation.fields", "simpeg/electromagnetics/static/resistivity/simulation.py BaseDCSimulation.Jvec", "simpeg/electromagnetics/static/resistivity/simulation.py BaseDCSimulation._Jtvec", "simpeg/electromagnetics/static/resistivity/simulation.py BaseDCSimulation.getJ", "simpeg/electromagnetics/static/resistivity/simulation.py BaseDCSimulation.getJtJdiag", "simpeg/electromagnetics/static/resistivity/simulation.py Simulation3DNodal.getA", "simpeg/electromagnetics/static/resistivity/simulation.py Simulation3DCellCentered.getA", "simpeg/electromagnetics/static/resistivity/receivers.py BaseRx.eval", "simpeg/electromagnetics/static/resistivity/sources.py BaseSrc.eval"]}
{"id": "C65", "title": "Miniaturized DC surveys give the same results", "statement": "A simulation created with miniaturize=True solves only pole sources at distinct electrodes, and its data, Jvec and Jtvec are those of the same simulation without it; the combination of pole data and its transpose are adjoint.", "quantifier": "all surveys of poles and dipoles, models and exact solvers", "why_tests_cant": "The equivalence rests on superposition and reciprocity for every arrangement of shared electrodes; tests try a handful of arrays.", "anchors": ["simpeg/electromagnetics/static/resistivity/utils.py _mini_pole_pole", "simpeg/electromagnetics/static/resistivity/simulation.py BaseDCSimulation._mini_survey_data", "simpeg/electromagnetics/static/resistivity/simulation.py BaseDCSimulation._mini_survey_dataT", "simpeg/electromagnetics/static/resistivity/simulation.py BaseDCSimulation.dpred", "simpeg/electromagnetics/static/resistivity/survey.py Survey.locations_a"]}
{"id": "C66", "title": "Frequency domain EM: fields, data and sensitivity products", "statement": "For every model, survey and each of the four formulations (e, b, j, h), the fields of each source satisfy the discrete Maxwell equations and are the only ones that do, the two formulations with the same discretisation predict the same data, Jvec is the derivative of the data with respect to the model, Jtvec is its adjoint, getJ is the matrix of both, getJtJdiag is the diagonal of J^T W^T W J, results do not depend on earlier calls, and the fields of several sources are those of each source.", "quantifier": "all meshes (operators of fitting sizes), differentiable conductivity and permeability mappings, models, surveys of raw and magnetic dipole sources with receivers of the real or imaginary part of any field, exact solvers, and histories of calls", "why_tests_cant": "Derivative and adjoint tests use one or two sources, receivers and models on fresh objects with a tolerance; the code paths multiply (formulation x field x mapped property x source kind), and lists of factorisations kept between calls can go stale in any order.", "anchors": ["simpeg/electromagnetics/frequency_domain/simulation.py BaseFDEMSimulation.fields", "simpeg/electromagnetics/frequency_domain/simulation.py BaseFDEMSimulation.Jvec", "simpeg/electromagnetics/frequency_domain/simulation.py BaseFDEMSimulation.Jtvec", "simpeg/electromagnetics/frequency_domain/simulation.py BaseFDEMSimulation.getJ", "simpeg/electromagnetics/frequency_domain/simulation.py Simulation3DElectricField.getA", "simpeg/electromagnetics/frequency_domain/simulation.py Simulation3DMagneticFluxDensity.getRHSDeriv", "simpeg/electromagnetics/frequency_domain/fields.py Fields3DElectricField", "simpeg/electromagnetics/frequency_domain/fields.py Fields3DMagneticField", "simpeg/electromagnetics/frequency_domain/receivers.py BaseRx.evalDeriv", "simpeg/electromagnetics/frequency_domain/sources.py MagDipole", "simpeg/electromagnetics/frequency_domain/survey.py Survey"]}
{"id": "C67", "title": "Time domain EM: fields, data and sensitivity products", "statement": "For every model, survey and each of the four formulations (b, e, h, j), the fields of each source at all time nodes satisfy the discrete Maxwell equations (backward differences in time) from the initial fields and are the only ones that do, the two formulations with the same discretisation agree, the initial fields of a grounded wire close its current, Jvec is the derivative of the data with respect to the model, and Jtvec is its adjoint.", "quantifier": "all meshes (operators of fitting sizes), differentiable conductivity mappings, models, lists of time steps, waveforms, surveys of dipoles, loops and line currents with receivers of any field at any times, exact solvers", "why_tests_cant": "Derivative tests use a few step lists, sources and late-time receivers with a tolerance; the recursion must be right for every number and pattern of steps (where factorisations are reused) and for every time a receiver may look at, including the last.", "anchors": ["simpeg/electromagnetics/time_domain/simulation.py BaseTDEMSimulation.fields", "simpeg/electromagnetics/time_domain/simulation.py BaseTDEMSimulation.Jvec", "simpeg/electromagnetics/time_domain/simulation.py BaseTDEMSimulation.Jtvec", "simpeg/electromagnetics/time_domain/simulation.py Simulation3DElectricField.Jtvec", "simpeg/electromagnetics/time_domain/simulation.py Simulation3DCurrentDensity.getRHS", "simpeg/electromagnetics/time_domain/fields.py", "simpeg/electromagnetics/time_domain/sources.py MagDipole", "simpeg/electromagnetics/time_domain/sources.py LineCurrent"]}
{"id": "C68", "title": "Integral gravity and magnetics: kernels of the two engines", "statement": "For every mesh, set of active cells and survey, the sensitivity matrix has one row per datum in the order of the data and holds, for each active cell, the response of that cell. The geoana and choclo engines give the same matrix, the data computed without storing the matrix equal the matrix times the model, the matrix-free transpose and weighted diagonal are those of the matrix, subdividing cells does not change the data, a uniform model gives the response of one prism, total-field components are the projections of the vector components, and a scalar susceptibility is the vector model along the inducing field.", "quantifier": "all tensor and general 8-node meshes, active-cell masks, surveys (any number of receiver objects with any component lists and locations), models, magnetizations, inducing fields, data weights, and prior contents of the array", "why_tests_cant": "Tests compare the engines with analytic spheres or blocks on one mesh with a tolerance and a few component lists; index arithmetic over receivers, components, locations and active cells must be right for every layout.", "anchors": ["simpeg/potential_fields/base.py BasePFSimulation", "simpeg/potential_fields/base.py BasePFSimulation.linear_operator", "simpeg/potential_fields/gravity/simulation.py Simulation3DIntegral", "simpeg/potential_fields/gravity/_numba/_3d_mesh.py", "simpeg/potential_fields/magnetics/simulation.py Simulation3DIntegral", "simpeg/potential_fields/magnetics/_numba/_3d_mesh.py"]}
{"id": "C69", "title": "Integral gravity and magnetics: answers over a history", "statement": "Whatever was asked of an integral gravity or magnetic simulation before, and however its sensitivities are stored (memory, disk, not at all), fields, Jvec, Jtvec, getJ and getJtJdiag answer for the model, survey, magnetization and kind of data (components or amplitudes) of the moment; the sensitivity is the derivative of the data, amplitudes included, and Jtvec its adjoint.", "quantifier": "all histories of queries and of assignments of survey, magnetization and is_amplitude_data, all models (including arrays changed in place), weights, engines, storage modes and prior contents of the sensitivity file", "why_tests_cant": "Tests build a fresh simulation for each query; the stored matrix, unit vectors and weighted diagonal only go wrong over sequences of calls with particular pairs of models or files.", "anchors": ["simpeg/potential_fields/base.py BasePFSimulation.linear_operator", "simpeg/potential_fields/gravity/simulation.py Simulation3DIntegral", "simpeg/potential_fields/magnetics/simulation.py Simulation3DIntegral", "simpeg/props.py HasModel.model"]}
{"id": "C70", "title": "Regularizations of vector models", "statement": "For a model of several components per cell, amplitude smallness is the weighted sum of the squared lengths of the cell vectors (after reference and mapping), amplitude smoothness the weighted sum of the squared lengths of the differences across faces, and the cross reference term the weighted sum of the squared lengths of the vector products with the reference directions, zero exactly for vectors along their direction; the first two do not change under rotations; deriv is the gradient, deriv2 its derivative and positive semidefinite; every weight and reference the setters accept is used as documented.", "quantifier": "all meshes (any number of cells and faces), components, mappings, references, directions (one or per cell), collections of weights of every accepted shape, models and vectors", "why_tests_cant": "Derivative tests use linear mappings and flat weights on a few meshes; weights given as a matrix are silently dropped or raise, and nonlinear mappings give wrong gradients.", "anchors": ["simpeg/regularization/vector.py BaseAmplitude", "simpeg/regularization/vector.py AmplitudeSmallness", "simpeg/regularization/vector.py AmplitudeSmoothnessFirstOrder", "simpeg/regularization/vector.py CrossReferenceRegularization", "simpeg/regularization/base.py BaseRegularization"]}
{"id": "C71", "title": "UBC gravity, gradient and magnetic files keep the data", "statement": "Writing gravity, gravity gradient or magnetic data in UBC format and reading the file back gives the same locations, components, inducing field, data and standard deviations, up to the printed digits; writing what was read gives the same file; blank lines between rows do not matter; a cut file is refused; writing leaves the data object unchanged.", "quantifier": "all data objects with one receiver list, all numbers of stations and components, all cut points, every printing that keeps sign and zero", "why_tests_cant": "tests write and read one or two small data sets with non-zero data and complete files; the claim is about every data set, header and cut point", "anchors": ["simpeg/utils/io_utils/io_utils_pf.py: read_mag3d_ubc, write_mag3d_ubc, read_grav3d_ubc, write_grav3d_ubc, read_gg3d_ubc, write_gg3d_ubc", "simpeg/data.py: Data"]}
{"id": "C72", "title": "Surveys generated from electrode tables", "statement": "A DC/IP survey generated from tables of A, B, M and N electrodes has one datum per row; the order returned with it is a permutation of the rows; the electrodes the survey reports are those of the rows in that order; pairs of electrodes at one place are poles and others dipoles.", "quantifier": "all tables of any length and dimension, any repetition of pairs", "why_tests_cant": "tests use a few regular layouts near the origin; the claim is about every order of rows, every repetition and every position", "anchors": ["simpeg/electromagnetics/static/utils/static_utils.py: generate_survey_from_abmn_locations", "simpeg/electromagnetics/static/resistivity/survey.py: Survey._set_abmn_locations"]}
{"id": "C73", "title": "DC/IP column files keep every datum with its electrodes", "statement": "Writing DC/IP data to a file in columns and reading it back gives each datum, deviation and extra column with the electrodes it was written with; reading any file returns the columns whose headers were asked for.", "quantifier": "all surveys, data, column headers and orders of columns", "why_tests_cant": "tests write files whose columns are in the order asked for; the claim is about every set of columns", "anchors": ["simpeg/utils/io_utils/io_utils_electromagnetics.py: read_dcip_xyz, write_dcip_xyz"]}
{"id": "C74", "title": "Directives are called in order, on the objects of the run", "statement": "Running an inversion calls every directive of its list, in list order, once before the first iteration, once after every accepted step and once at the end; during those calls the directive's inversion, regularization and data misfit are those of the inversion being run (or the ones the directive was constructed with). A regularization without a reference model is regularized towards the starting model of the run.", "quantifier": "every program that makes directives, directive lists, inverse problems and inversions (sharing parts or not) and runs them in any order, and every way each pass of the minimiser can end", "why_tests_cant": "whether a directive acts on the right objects depends on the whole history of which inversions it and the optimizer were handed to; tests build each inversion from fresh parts", "anchors": ["simpeg/inversion.py:BaseInversion", "simpeg/directives/_directives.py:InversionDirective", "simpeg/directives/_directives.py:DirectiveList", "simpeg/inverse_problem.py:BaseInvProblem.startup", "simpeg/optimization.py:Minimize.minimize"]}
{"id": "C75", "title": "Layered magnetotellurics solves Maxwell's equations and has exact sensitivities", "statement": "For a layered earth the recursive simulation's impedance is the ratio E/H at the surface of every bounded solution of Maxwell's equations in the layers, so cutting a layer in two changes nothing and a uniform ground gives its own resistivity and a phase of -135 degrees. dpred holds one number for each datum of the survey, computed at the frequency of its own source; Jvec is the derivative of dpred, Jtvec its adjoint, getJtJdiag the diagonal of J^T W J, and every answer is that of a new object whatever was called before.", "quantifier": "all numbers of layers, conductivities, thicknesses and frequencies, all surveys, all differentiable mappings of the model to conductivities and thicknesses, all histories of calls", "why_tests_cant": "tests compare a few layered models with a tolerance and check derivatives along one random direction; the recursion divides by quantities that have to stay away from zero for every model", "anchors": ["simpeg/electromagnetics/natural_source/simulation_1d.py:Simulation1DRecursive", "simpeg/electromagnetics/natural_source/receivers.py:Impedance", "simpeg/electromagnetics/frequency_domain/survey.py:Survey"]}
{"id": "C76", "title": "Geometric factors turn voltages into apparent resistivities", "statement": "Electrode separations are the distances of the electrodes of each datum, in data order, with the missing electrode of a pole infinitely far. Geometric factors depend on distances only (moved by a similarity they scale inversely), are the same when current and potential electrodes are exchanged, change sign with the polarity, and those of a pole are limits of those of dipoles. After survey.set_geometric_factor every apparent-resistivity receiver holds the factors of its own data, and over a homogeneous ground its data are the resistivity of the ground, whatever the electrodes, and their derivative and adjoint are consistent; apparent_resistivity_from_voltage gives that resistivity up to its stabiliser; pseudo-locations lie below the middle of the spread at half its length.", "quantifier": "all surveys of pole and dipole sources and receivers in any dimension, all electrode positions, resistivities, currents and stabilisers", "why_tests_cant": "Tests check a handful of arrays with unit current on flat ground; the claim ranges over all electrode positions, shared receivers, currents, polarities and orders of calls.", "anchors": ["simpeg/electromagnetics/static/utils/static_utils.py:electrode_separations", "simpeg/electromagnetics/static/utils/static_utils.py:geometric_factor", "simpeg/electromagnetics/static/utils/static_utils.py:apparent_resistivity_from_voltage", "simpeg/electromagnetics/static/utils/static_utils.py:pseudo_locations", "simpeg/electromagnetics/static/resistivity/survey.py:Survey.set_geometric_factor", "simpeg/electromagnetics/static/resistivity/receivers.py:BaseRx"]}
{"id": "C77", "title": "Layered DC resistivity solves the layered problem", "statement": "The kernel of the layered DC simulation is the ratio of potential to vertical current density at the surface of any solution of the layered-ground equations; it lies between the extreme resistivities and is unchanged when a layer or the bottom is cut in two; wrong numbers of thicknesses raise. The filter's radii span all electrode distances and the transform at each radius uses the filter's own points. Over a homogeneous ground, however layered, surface electrodes measure the voltages (or apparent resistivities) of a half-space. Jvec is the derivative of dpred, Jtvec its adjoint (zero when nothing is mapped), and after any history of calls, survey and filter changes the answers are those of a new simulation.", "quantifier": "all numbers of layers, positive resistivities, thicknesses and wavenumbers, all pole/dipole surveys and currents, all log-spaced filters and constant-preserving splines, all mappings, all call histories", "why_tests_cant": "Tests compare one survey with an analytic solution and one model with finite differences; the claim ranges over all layerings, surveys with several apparent resistivities per receiver, filters and orders of calls.", "anchors": ["simpeg/electromagnetics/static/resistivity/simulation_1d.py:Simulation1DLayers", "simpeg/electromagnetics/static/resistivity/simulation_1d.py:_phi_tilde", "simpeg/electromagnetics/static/resistivity/simulation_1d.py:_dphi_tilde", "simpeg/electromagnetics/utils/em1d_utils.py:get_splined_dlf_points"]}
{"id": "C78", "title": "Induced polarization data are the chargeability response of the DC data", "statement": "The IP simulation predicts the rate of change of the DC data when the conductivity sigma is lowered to sigma (1 - t eta) (Seigel), divided by the DC data for apparent chargeabilities; ground of a single chargeability shows exactly that apparent chargeability. Jvec is the derivative of dpred, Jtvec its adjoint, for every mapping of the chargeability, and after any history of calls, with or without fields returned before, and after a new background conductivity, the answers are those of a new simulation.", "quantifier": "all meshes operators, nodal and cell-centred formulations, surveys, conductivities, models and mappings, all histories of calls", "why_tests_cant": "Tests compare a finite-difference derivative for one linear mapping on one fresh object; the claim ranges over mappings, kept fields, weights and orders of calls.", "anchors": ["simpeg/electromagnetics/static/induced_polarization/simulation.py:BaseIPSimulation", "simpeg/electromagnetics/static/induced_polarization/simulation.py:BaseIPSimulation._scale", "simpeg/electromagnetics/static/induced_polarization/simulation.py:BaseIPSimulation.dpred", "simpeg/electromagnetics/static/induced_polarization/simulation.py:BaseIPSimulation.getJtJdiag"]}
{"id": "C79", "title": "Splitting a 3D survey into 2D lines keeps every datum with its electrodes", "statement": "convert_survey_3d_to_2d_lines returns one 2D survey per line ID, in increasing order; the indices returned for a line are those of its data, each once, and the electrodes of its survey, in its own data order, are those of these data placed on the profile of the line (distance along it, elevation), so that electrodes on a straight line keep their distances. The profile starts at the A electrode of the first source. Poles stay poles and dipoles stay dipoles; no data are lost.", "quantifier": "all 3D surveys and all line IDs", "why_tests_cant": "Tests convert one gridded survey of straight lines with several surface sources; the claim ranges over all positions, including single sources, boreholes and arrays across the line.", "anchors": ["simpeg/electromagnetics/static/utils/static_utils.py:convert_survey_3d_to_2d_lines", "simpeg/electromagnetics/static/resistivity/survey.py:Survey._set_abmn_locations"]}
{"id": "C80", "title": "Joint inversions cool every trade-off parameter by its own misfit, stop when all misfits have settled, and report what they did", "statement": "With the similarity-measure directive first, the paired schedule changes each regularization multiplier every coolingRate iterations according to the value and target of the misfit it belongs to (divided by the cooling factor when too large, relaxed by at most a third when reached), leaves the coupling multiplier alone and keeps the multipliers positive; larger misfits never get larger multipliers. The inversion is told to stop exactly when at some iteration all misfits were within the tolerance of their targets and the model hardly changed. The saved output lists, for every iteration, the misfits and the trade-off parameters it was computed with.", "quantifier": "for every number of misfits, every admissible setting and order of directives, and every history of iterations and values", "why_tests_cant": "The parameters are the outcome of a feedback over all iterations with lists that are shared between objects; tests run one short joint inversion and check that it ends, not that values, targets and multipliers stay paired over any history or that saved lists are not changed later.", "anchors": ["simpeg/directives/_sim_directives.py: SimilarityMeasureInversionDirective", "simpeg/directives/_sim_directives.py: PairedBetaSchedule", "simpeg/directives/_sim_directives.py: MovingAndMultiTargetStopping", "simpeg/directives/_sim_directives.py: SimilarityMeasureSaveOutputEveryIteration", "simpeg/objective_function.py: ComboObjectiveFunction.__call__"]}
{"id": "C81", "title": "DC/IP surveys and data come back from the UBC files they are written to", "statement": "Writing a DC or IP data object to a UBC 2D, 3D or octree file and reading the file gives the same sources, receivers, data and uncertainties, up to the printed digits and to merging the receivers of a source; surface formats only lose elevations. Writing leaves the data object unchanged.", "quantifier": "for every survey of pole and dipole sources and receivers, all data and uncertainties, all data types, file types and formats, and every rounding by the printer", "why_tests_cant": "Tests write and read one synthetic survey of a single kind near the origin; flags that survive from one source to the next, tolerances relative to the coordinates and column conventions only show for other mixtures and positions.", "anchors": ["simpeg/utils/io_utils/io_utils_electromagnetics.py: read_dcip2d_ubc", "simpeg/utils/io_utils/io_utils_electromagnetics.py: read_dcip3d_ubc", "simpeg/utils/io_utils/io_utils_electromagnetics.py: write_dcip2d_ubc", "simpeg/utils/io_utils/io_utils_electromagnetics.py: write_dcip3d_ubc"]}
{"id": "C82", "title": "Column files are accepted exactly when they describe a survey; simple 2D files keep every datum", "statement": "An XYZ file with the columns asked for is accepted exactly when its electrodes make a survey and no uncertainty is negative; a missing header is an error; data found under a header do not depend on where the column stands; data can be written with or without uncertainties. A survey written in the simple 2D format and read back has every datum and uncertainty (as printed) with the same electrode positions, whatever the number of data.", "quantifier": "all files, headers, electrode tables, data, uncertainties, further columns, printing precisions and surveys", "why_tests_cant": "The tests write and read one file; which files are rejected, and the pairing after sorting, must be right for every file.", "anchors": ["simpeg/utils/io_utils/io_utils_electromagnetics.py:read_dcip_xyz", "simpeg/utils/io_utils/io_utils_electromagnetics.py:write_dcip_xyz", "simpeg/utils/io_utils/io_utils_electromagnetics.py:read_dcip2d_ubc", "simpeg/utils/io_utils/io_utils_electromagnetics.py:write_dcip2d_ubc"]}
{"id": "C83", "title": "Draped electrodes lie on the discrete topography", "statement": "The discrete topography of a tensor mesh has, for every horizontal column, the top (or centre) of its highest active cell; points shifted to it lie on the surface of the column that contains them, plus their height; draping a DC/IP survey moves every electrode there, keeps electrodes at one place together, keeps sources, receivers and data, updates the tables of the survey, uses the electrodes the survey has now, and changes nothing when repeated.", "quantifier": "all tensor meshes in two and three dimensions, active cells, cutoffs, points, heights, surveys and histories of reading tables and moving sources", "why_tests_cant": "The tests compare a few uniform meshes with expected elevations; the column that is chosen, for cells of any sizes, and the effect of kept tables depend on the mesh and on the order of calls.", "anchors": ["simpeg/utils/mesh_utils.py:get_discrete_topography", "simpeg/utils/mesh_utils.py:shift_to_discrete_topography", "simpeg/electromagnetics/static/resistivity/survey.py:Survey.drape_electrodes_on_topography"]}
{"id": "C84", "title": "Synthetic data keep clean and noisy values apart, with the noise they report", "statement": "make_synthetic_data returns the predicted data as clean data and, with add_noise true, data that differ by Gaussian noise of the documented standard deviation (relative error times |clean datum| and noise floor, combined in squares); the object reports that deviation. Data objects own their numbers: assigning or writing one quantity of one object never changes another quantity or another object.", "quantifier": "all predictions, uncertainties, random draws, and programs of assignments of any length on any number of data objects", "why_tests_cant": "Tests make one data set and look at it; sharing of arrays shows only in longer programs, and the noise must be right for every draw.", "anchors": ["simpeg/simulation.py: BaseSimulation.make_synthetic_data, dpred", "simpeg/data.py: Data, SyntheticData"]}
{"id": "C85", "title": "Natural source receivers measure the transfer functions they document", "statement": "Impedance, tipper and admittance data are the solution of their defining linear systems over the two polarisations (E = Z H, Ho = T H, H = Y E), with each field taken at the locations given for it; apparent resistivity, phase and apparent conductivity follow their formulas; evalDeriv is the derivative of the data with respect to the fields, and its adjoint is the transpose, for every orientation and real component.", "quantifier": "all meshes (any projection matrices), numbers of locations, complex fields with non-degenerate horizontal components, orientations, components, directions and adjoint vectors", "why_tests_cant": "Tests compare numbers for a few layered or block models, in which the horizontal fields have special symmetries, and check derivatives at one model with a tolerance.", "anchors": ["simpeg/electromagnetics/natural_source/receivers.py: Impedance, Tipper, Admittance, ApparentConductivity (eval, evalDeriv)"]}
{"id": "C86", "title": "The Jacobi preconditioner follows the system being solved", "statement": "With UpdatePreconditioner in the list of directives, every linear solve of an inversion uses a diagonal preconditioner built from the model, trade-off parameter and regularization weights of that solve: nonnegative, zero exactly where the Hessian's diagonal is, and equal to the inverse diagonal elsewhere. Simulations without explicit sensitivities are refused; nothing else makes it fail. Update_Wj estimates weights from the sensitivities at the iteration asked for.", "quantifier": "all problems (numbers of misfit and regularization terms, multipliers, sensitivities, weights), all lists of directives, all starting states and all sequences of models the optimizer steps to", "why_tests_cant": "A wrong preconditioner only slows the solver, so results stay right on test problems; whether it is up to date depends on the order of the directives and the whole history.", "anchors": ["simpeg/directives/_directives.py:UpdatePreconditioner", "simpeg/directives/_directives.py:Update_Wj", "simpeg/directives/_directives.py:BetaSchedule", "simpeg/inverse_problem.py:BaseInvProblem.evalFunction", "simpeg/data_misfit.py:L2DataMisfit.deriv2"]}
{"id": "C87", "title": "2.5D DC resistivity integrates the solutions over the wavenumbers and differentiates them", "statement": "The 2.5D DC simulations (nodal and cell-centred) predict, for every source and receiver, the quadrature-weighted sum over the wavenumbers of the receiver's reading of the unique solution of that wavenumber's discrete equation with the chosen boundary condition. Jvec is the derivative of these data, Jtvec its adjoint, getJ the matrix of both, with stored sensitivities or without; the trapezoidal weights integrate over the wavenumbers from zero. Answers do not depend on the calls made before on the same object, nor on boundary conditions it had before.", "quantifier": "all meshes (operators), boundary conditions, conductivity mappings, wavenumbers and weights, surveys, models, vectors, exact solvers, and histories of calls with or without passed fields", "why_tests_cant": "Derivative tests take one model on a new object; a boundary product kept from an earlier model only shows at the second model of an inversion with a nonlinear mapping.", "anchors": ["simpeg/electromagnetics/static/resistivity/simulation_2d.py:BaseDCSimulation2D", "simpeg/electromagnetics/static/resistivity/simulation_2d.py:Simulation2DCellCentered", "simpeg/electromagnetics/static/resistivity/simulation_2d.py:Simulation2DNodal", "simpeg/electromagnetics/static/resistivity/receivers.py:BaseRx"]}
{"id": "C88", "title": "Self potential responds linearly to the charge rates, and the mappings to them conserve charge", "statement": "Self-potential data are the potentials (or differences) at the electrodes of the solution of the cell-centred DC system whose right-hand side is cell volume times rate q; they add up for linear mappings, equal DC data when q describes an electrode's current, Jvec is their derivative, Jtvec its adjoint and getJ the matrix of both, whatever was called before. CurrentDensityMap gives minus the current leaving each cell, keeps currents inside of the active cells and conserves charge; HydraulicHeadMap gives the divergence of L grad h. Changing resistivity or mapping takes effect.", "quantifier": "all meshes with positive volumes and areas, resistivities, mappings, receivers, models, vectors, active cells, heads and couplings, exact solvers, and histories of calls with or without passed fields", "why_tests_cant": "Tests compare with DC on one uniform mesh and check derivatives on new objects; a face closed because its two cells differ in volume, or a sign, only shows on other meshes or against the equation.", "anchors": ["simpeg/electromagnetics/static/self_potential/simulation.py:Simulation3DCellCentered", "simpeg/electromagnetics/static/self_potential/simulation.py:CurrentDensityMap", "simpeg/electromagnetics/static/self_potential/simulation.py:HydraulicHeadMap", "simpeg/electromagnetics/static/resistivity/simulation.py:BaseDCSimulation"]}
{"id": "C89", "title": "Spectral induced polarization data are stacked decays, with exact derivatives", "statement": "SIP data are, time by time, the linear readings of the chargeability of the cells at that time: the stretched exponential decay, or with n pulses the mean over k = 1..n of the superposition of k alternating pulses of a quarter period. The survey's times are increasing, without repetition and exactly those of its receivers. Jvec is the derivative of the data with respect to eta, 1/tau and c, Jtvec its adjoint, and results do not depend on earlier calls. Apparent chargeabilities are divided by the DC voltage once, however often fields is called.", "quantifier": "all mappings, positive 1/tau and times, numbers of pulses, sources, receivers, models, vectors and histories of calls with or without passed fields, stored J or not", "why_tests_cant": "Tests use one source with one receiver and increasing times on new objects; data in another order, receivers with their own times, stored J in three dimensions and stale chargeabilities stay unseen.", "anchors": ["simpeg/electromagnetics/static/spectral_induced_polarization/simulation.py:BaseSIPSimulation", "simpeg/electromagnetics/static/spectral_induced_polarization/simulation_2d.py:BaseSIPSimulation2D", "simpeg/electromagnetics/static/spectral_induced_polarization/data.py:Data", "simpeg/electromagnetics/static/spectral_induced_polarization/receivers.py"]}
{"id": "C90", "title": "An inversion with several targets stops exactly when all are reached, and its schedule is monotone", "statement": "With MultiTargetMisfits an iteration asks the inversion to stop exactly when every data misfit is below its target, the petrophysical smallness is not above its target (if asked for) and the mixture is within its tolerance (if asked for). Targets are the chi factors times the expected misfits (the numbers of data unless given), or the last assigned targets, as of now and whatever was assigned before. Under PGI_BetaAlphaSchedule beta stays positive and never rises, alpha never falls and at most one of them changes in an iteration; beta is cooled before the targets are reached exactly when no missed misfit made the asked progress, alpha is warmed exactly when all targets are reached, and a misfit that exceeds its target by more than the tolerance later cools beta again.", "quantifier": "all numbers of misfits, settings, histories of assignments and iterations, misfit values, factors and update rates", "why_tests_cant": "Tests run one short inversion with default settings; one number given for several misfits, exact evaluation, sums of regularizations, the other order of directives and long histories stay unseen.", "anchors": ["simpeg/directives/_directives.py:MultiTargetMisfits", "simpeg/directives/_pgi_directives.py:PGI_BetaAlphaSchedule"]}
{"id": "C91", "title": "Viscous decays are the memory of the waveform's current", "statement": "The characteristic decay of h after a waveform is the integral of its current, scaled to its peak, over 1/(t - s); dh/dt is its derivative, b and db/dt are mu0 times these, and times that are not after the waveform are refused. A square pulse is a step off at its end less one at its beginning, more samples on a linear piece change nothing, and with relaxation times uniform in the logarithm the rate stays between that of unlimited relaxation times and zero and is the derivative of the field.", "quantifier": "all pulses, sampled waveforms with increasing times, observation times, field types, susceptibilities and relaxation times", "why_tests_cant": "The test compares one trapezoid that begins and ends at zero, where a wrong sign cancels; waveforms that end abruptly, begin on or turn negative stay unseen.", "anchors": ["simpeg/electromagnetics/viscous_remanent_magnetization/waveforms.py:StepOff", "simpeg/electromagnetics/viscous_remanent_magnetization/waveforms.py:SquarePulse", "simpeg/electromagnetics/viscous_remanent_magnetization/waveforms.py:ArbitraryPiecewise"]}
{"id": "C92", "title": "Tile maps average the model over the active cells", "statement": "A map from the active cells of a global mesh to a local mesh gives, for every component, the integral of the model over the active cells inside each local cell divided by the volume of the local cell, for exactly the local cells that hold an active cell. It keeps the integral of the model, keeps values within their range where cells are wholly active, changes nothing if the meshes are the same, and its derivative is exact.", "quantifier": "all nested meshes, volumes, masks of active cells, numbers of components and models", "why_tests_cant": "The test compares the total mass on three random tiles, one component, and accepts any mass that is too small since the difference has no absolute value; values per cell, several components and other masks are not compared.", "anchors": ["simpeg/maps/_base.py:TileMap"]}
{"id": "C93", "title": "Responses to a waveform are convolutions with the rate of its current", "statement": "Convolving a response with a waveform gives, for each time, minus the integral over the delays since the waveform began of the rate of the current at t - s times the response at s. It is zero before the waveform, does not change if nodes are added, gives the drop of the current for a steady response, and after a trapezoid is the mean response over the ramp off less that over the ramp on.", "quantifier": "all responses with a primitive, waveforms with increasing nodes, times before, during and after the waveform, and quadratures that are exact between nodes", "why_tests_cant": "The tests use it only as a reference for layered simulations with triangular waveforms; times during the waveform, other node lists and abrupt waveforms are not compared with an integral.", "anchors": ["simpeg/electromagnetics/utils/waveform_utils.py:convolve_with_waveform", "simpeg/electromagnetics/time_domain/sources.py:TrapezoidWaveform"]}
{"id": "C94", "title": "Learned reference models enter smoothness terms once stable", "statement": "In a petrophysically guided inversion, once the data targets are reached and the classification of the cells is stable, the smoothness terms use the reference model made of the means of the units; before that they use none, and no other terms are changed.", "quantifier": "all histories of iterations and mixture updates, memberships, targets, tolerances and regularizations made of a PGI alone or in a sum", "why_tests_cant": "No test uses the directive; what the terms use depends on the history of memberships, on which other directives run and on how the regularization is nested.", "anchors": ["simpeg/directives/_pgi_directives.py:PGI_AddMrefInSmooth", "simpeg/regularization/pgi.py:PGI", "simpeg/regularization/base.py:WeightedLeastSquares"]}
