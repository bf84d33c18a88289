{
 "C03": {
  "status": "partial",
  "note": "Refuted in general (finding: the survey's vnD cache survives a change of sources or receivers); proved when no count is read before the last change."
 },
 "C04": {
  "status": "partial",
  "note": "Formula proved for every history. Finding: a rejected standard_deviation assignment has already replaced relative_error by zeros."
 },
 "C05": {
  "status": "partial",
  "note": "Value, gradient and Hessian proved for the diagonal (symmetric) weights built from the uncertainties. Finding: deriv2 applies W twice instead of W^T W, so a user-assigned non-symmetric W gives a wrong Hessian (refuted)."
 },
 "C06": {
  "status": "partial",
  "note": "Refuted in general (finding: W is cached on first read and never refreshed when the data uncertainties change); proved while W has not been read or was assigned after the change."
 },
 "C07": {
  "status": "partial",
  "note": "Proved for +, *, / and sum(l, Zero()). Finding: the plain builtin sum(l) raises TypeError because its start value 0 is refused."
 },
 "C10": {
  "status": "partial",
  "note": "Termination, returned model and monotone decrease proved for unbounded runs, projected steepest descent and convex objectives. Finding: ProjectedGradient can return a worse model than it started with on a convex quadratic (refuted)."
 },
 "C12": {
  "status": "partial",
  "note": "Refuted in general (finding: maxStep scaling uses abs(p.max()), so large negative components pass the limit); proved when the largest component in size is positive."
 },
 "C13": {
  "status": "partial",
  "note": "Symmetric positive definiteness and descent proved for every history. Findings: the latest pair is unused between 2 and nbfgs stored pairs, and stored gradient and model differences belong to different steps (refuted secant equation)."
 },
 "C14": {
  "status": "partial",
  "note": "Proved for fresh-array preconditioners that do not couple free and bound components (blocked components, iteration limit, descent, exact Newton step after N iterations). Findings: the default preconditioner's result aliases the residual, and coupling preconditioners can give an uphill direction (refuted)."
 },
 "C18": {
  "status": "partial",
  "note": "Refuted in general: np.allclose lets the model drift by any amount, in-place edits and one-element broadcasts keep stale caches. Proved for histories without these."
 },
 "C19": {
  "status": "partial",
  "note": "Refuted in general (nested object with its own model, resized mapping, second-level nesting after 'no model', after del model). Proved for any depth when all nested objects hold the parent's model, and for the first assignment with one level of nesting."
 },
 "C20": {
  "status": "partial",
  "note": "Shape, size checks, application and the chain rule proved for every chain (any nesting) whose elementary maps return their derivative as a sparse matrix or symbolic identity. Refuted in general: dense LinearMap matrices are multiplied elementwise; scaling maps of unspecified size cannot be differentiated; a map of unspecified size between two incompatible ones hides the clash until application."
 },
 "C21": {
  "status": "partial",
  "note": "Value proved in general; deriv(m, v) and untouched arguments proved when the first part is not the plain identity; deriv(m) proved for parts that return sparse matrices. Refuted in general: with an identity first the caller's v is overwritten (and [I, I, I] gives 4v); diagonal parts given by a 1-D array make deriv(m) a 1-D array."
 },
 "C22": {
  "status": "partial",
  "note": "Both round trips proved for every map and size with usable parameters (non-zero scalings, bounds that fit the model). Refuted: for a one-cell map, longer logistic bounds are accepted and the round trip changes the size."
 },
 "C23": {
  "status": "partial",
  "note": "Proved (Frechet derivative, and deriv(m, v) = deriv(m) v) with the number of parameters given, one weight per cell, logarithm arguments at least 1e-16. Refuted outside: log of positive values below 1e-16, a single broadcast weight, susceptibility/permeability maps of unspecified size."
 },
 "C24": {
  "status": "partial",
  "note": "All routing statements proved for every size. Refuted corners: a negative wire length is accepted, a Python list of booleans projects values and derivative differently, and reassigning active_cells leaves the injection matrix behind."
 },
 "C25": {
  "status": "partial",
  "note": "Refuted in general (validate_float accepts NaN for any bounds; validate_integer rounds towards zero before comparing, so -0.5 passes a lower bound 0); proved that non-NaN floats are accepted exactly within inclusive/exclusive bounds, and integers exactly when the rounded value is within bounds."
 },
 "C26": {
  "note": "String alias canonicalisation, shape matching with atleast_nd padding, active-cell masks from boolean masks and (possibly negative) indices. casefold is an arbitrary function."
 },
 "C27": {
  "status": "partial",
  "note": "Refuted in part (a write that raises, or a write to another source, makes an unwritten field readable as zeros; slices of sources select columns by position when sources own several columns); proved: latest-value read-back over every history, frame, aliases read-only, unknown names raise, dictionary writes."
 },
 "C28": {
  "status": "partial",
  "note": "Refuted for a list of sources with a list of times (numpy pairs them); proved for every other key: read-back and frame over every history. Aliased time fields are not modelled."
 },
 "C30": {
  "status": "partial",
  "note": "Refuted in general (the number of data is cached at first use, so changing the survey leaves the old target); proved: for a fixed survey the target is always the last one asked for and runs stop at the first iteration below it."
 },
 "C31": {
  "status": "partial",
  "note": "Refuted in general (an exact fit after the start raises; a zero percentile at the start raises; after a run that never reaches the start misfit the user's norms are lost); proved for all histories that do not raise: norms, thresholds, reweighting bound and direction of beta."
 },
 "C32": {
  "status": "partial",
  "note": "Refuted in general (with the global method weights fall below the threshold; minimum normalisation divides by zero if a zero weight is left; percentile thresholds above 100 raise); proved: raw weights formula, maximum exactly 1, minimum exactly 1 for positive thresholds, amplitude lower bound, positivity and order."
 },
 "C33": {
  "status": "partial",
  "note": "Refuted in general (models are compared by identity, so an array changed in place or a changed simulation keeps the fields stored by a line search); proved for all histories in which nothing changes between a storing evaluation and the next."
 },
 "C34": {
  "status": "partial",
  "note": "Refuted in general (a term without a simulation shifts the fields of the following misfits); proved when misfits with simulations come first."
 },
 "C35": {
  "status": "partial",
  "note": "Refuted in general (an inner simulation used directly stays out of step; a cached diagonal ignores new weights; the diagonal of a sum omits the products between simulations); proved: after any history of calls through the meta simulation, dpred is the concatenation of the parts, Jvec its derivative, Jtvec the adjoint, the same for sums and repeated simulations; diagonal proved for mappings in which each parameter feeds at most one output."
 },
 "C36": {
  "status": "partial",
  "note": "Refuted in general (after a worker raised while computing fields or setting the model there is one reply too many, so later calls fail or return the reply to an earlier call; the summing variant stacks within a worker when there are fewer processes than simulations); proved: partition in order for every number of processes, and for simulations that do not raise every schedule terminates with the serial answers for every history of calls."
 },
 "C37": {
  "status": "partial",
  "note": "Refuted in general (VTEM is negative before time 0 with a reported derivative of 0; a step-off ended before 0 is on at 0; ramp-off jumps by its tolerance; overlapping trapezoid ramps give the wrong derivative; off_time assigned later is unchecked or ignored); proved for all times for ordered trapezoid, quarter-sine, half-sine, triangular, exponential, piecewise linear, ramp-off without tolerance, and VTEM from time 0."
 },
 "C38": {
  "note": "Round trip refuted in general (spherical2cartesian adds 1e-8 to the amplitude, and the flat results cannot be chained); proved that every vector returns exactly 1e-8 longer in the same direction, and the other parts in full, with define_plane_from_points."
 },
 "C46": {
  "status": "partial",
  "note": "Refuted in general (findings: stored projections survive a change of locations; time receivers ignore the requested grids on a cache hit); proved when locations are not reassigned or projections are not stored."
 },
 "C47": {
  "status": "partial",
  "note": "Source lookups proved. Finding: BaseSrc.get_receiver_indices raises TypeError for the source's own receivers."
 },
 "C51": {
  "note": "Refuted in general (derivative wrong past a pole, stale after in-place changes, amplitudes drift by 1e-8 per projection); proved away from the poles and without in-place changes."
 },
 "C39": {
  "note": "Refuted in general (two-layer values are swapped, bottom-up layers get one another's values, wrong-dimension corners accepted, 1-D two-layer model always raises); proved: blocks for every choice of corners, spheres, top-down layers, ellipses and the bounds of the random model."
 },
 "C40": {
  "note": "Refuted in general (zero kernel with p < 1 and scaling gives zero weights); proved positivity otherwise, p = 2, monotonicity, the Lp approximation and its limit, and that scaled weights keep the gradient below its l2 maximum."
 },
 "C53": {
  "note": "Refuted when a term was set on its own (a rejected assignment undoes it); proved for all histories of assignments of norms."
 },
 "C41": {
  "note": "Refuted in general (a set_weights call refused halfway leaves the old product in use, no weights raises, active cells given after an evaluation or through another term leave stale operators, second-order terms accept face weights they cannot use); proved for all other histories: registry of weights, value, gradient, Hessian symmetric and positive semidefinite."
 },
 "C54": {
  "note": "Refuted for second order (it always raises); proved for first order: turns, and the gradient away from the cut for gradients whose rows are differences."
 },
 "C42": {
  "note": "Constants and length scales over the reals; nan and infinite values are not modelled."
 },
 "C43": {
  "note": "Refuted for the default k (every call raises TypeError); proved for every k > 0: class sums, exact for banded matrices and k >= n, and bounds for random vectors."
 },
 "C52": {
  "note": "Refuted in general (indefinite second derivatives: the estimate can stay at -7/25 for diag(1,-1)); proved bounds, exactness on eigenvectors, monotonicity and convergence for symmetric semidefinite combinations, and scaling with multipliers. Random starts are arbitrary vectors; zero norms give None."
 },
 "C55": {
  "note": "Refuted in general (zero model gives no finite beta, initializing alphas twice scales twice, n_pw_iter ignored for misfit scales, list multipliers raise, joint schedule leaves its bounds); proved beta bounds and homogeneity, alpha relation, positive balanced misfit scales with sum 1, joint schedule invariant over all histories."
 },
 "C44": {
  "note": "Refuted in general (G set later leaves the survey's number of data unchanged); proved data, Jacobian, adjoint and derivative for every state reachable through the API. Array or mapping arguments of the wrong shape raise and are not part of the theorems."
 },
 "C45": {
  "note": "All histories of assignments, rejected assignments, reads and deletions. discretize's TensorMesh and unpack_widths are modelled by their documented meaning."
 },
 "C57": {
  "note": "Refuted in general (parameters assigned after the first read are ignored; more kernels raise IndexError); proved for parameters set before the first read."
 },
 "C48": {
  "note": "Exact reals; distances plus threshold positive (monotonicity for threshold > 0). cdist_opts choose another metric and are outside the comparison of engines. No cells or no reference locations raise or give nan and are excluded."
 },
 "C49": {
  "note": "Refuted in general (the Hashin-Shtrikman bounds are returned in the wrong order, strictly so for every proper mixture); proved that both lie between the Wiener bounds, which lie between the conductivities."
 },
 "C56": {
  "note": "Refuted in general (the absolute tolerance and starting point of the first transform are kept after the conductivities change, results depend on earlier fractions, one fraction outside [0,1] collapses the result to one number, zero iterations raise); proved existence, uniqueness, inverse, derivative, range for all histories and convergence with error bound for spheres. random=False and aspect ratios other than 1 in the convergence theorem are not covered."
 },
 "C50": {
  "note": "Refuted in general (a raising timed call leaves minus its start time, a recursive call closes the inner interval twice); proved counts and numbers of entries for all programs, totals when all calls return, and individual intervals without recursion."
 },
 "C58": {
  "note": "Refuted in general (directions given per active cell always fail the default orthonormality check; eps of the joint total variation is not validated, and at eps = 0 every constant model divides by zero); proved: gradients, Hessians, both Hessian forms, symmetry, semidefiniteness, signs, bounds and the directional meaning of the anisotropy. The mesh operators (cell gradient, averaging, face inner product) are arguments."
 },
 "C59": {
  "note": "Refuted in general (the 3-D polynomial map reads its coefficients in another order than its derivative; the spline map's derivative is zero for normal x and for the top boundary, uses the last evaluated model, and raises before the first evaluation; the circle's two values play the opposite of the documented roles; the layer does not compute its documented formula; coordinates are kept when active cells change; the layer cannot be evaluated in 1-D); proved: exact derivatives of layer, block, ellipsoid, casing, block in layer, circle, 2-D polynomial, 3-D polynomial with one order zero, 2-D spline with normal y after evaluating the same model, 3-D spline along bottom directions; values between the given values; every evaluation uses the cells active at the first one."
 },
 "C60": {
  "note": "Refuted in general (a ray along an interior grid line counts twice; the matrix is not rebuilt when mesh or survey is replaced; after a ray outside the mesh raised, later calls return zeros); proved: exact length in every cell, total length, bounds, reciprocity, data/derivative/adjoint for every history that keeps mesh and survey. Floating-point rounding is not modelled."
 },
 "C61": {
  "note": "Refuted in general (stored matrices survive a new mapping, a new mesh, deleting the property, and a model within np.allclose of the old one); proved for all other histories: matrices, inverses, derivatives, adjoint and matrix forms. Isotropic properties on meshes with linear inner products; several directions at once not modelled."
 },
 "C62": {
  "note": "Refuted in two corners (integer head arrays truncate the saturated conductivity; derivU of van Genuchten's conductivity at head exactly 0 for n <= 2, default 1.56); proved otherwise: values, ranges, monotonicity, derivM and derivU of all four relations, factory functions. Exact real arithmetic."
 },
 "C63": {
  "note": "Refuted in general (method 'head' gives matrices that are not the Jacobian; with given fields dpred and Jtvec evaluate Saturation receivers at the model stored before; Jtvec without fields always raises because it calls self.field); proved for the method 'mixed' with exact solvers: blocks, Newton matrix, Jvec along solution branches, Jfull, adjointness with the argument stored. Face conductivity is the harmonic mean divided by twice the averaging weight, so with discretize's weights 1/(2 dim) it is dim times the harmonic mean."
 },
 "C64": {
  "note": "Refuted in general: with Neumann conditions the replaced row is not differentiated (Jvec wrong and not adjoint to Jtvec for pole receivers); fields kept while another model is factored give products with the later factorisation; a replaced survey keeps the old source terms; two electrodes in one cell overwrite each other's current; getJtJdiag ignores model and weights after the first call. Proved otherwise: fields, data, derivative, adjoint, getJ, storeJ and independence of history, for Robin/Dirichlet conditions and exact solvers. Model comparison is exact (np.allclose is treated in C61). Fields other than potentials (projField e or j) are not modelled."
 },
 "C65": {
  "note": "Refuted in general: currents other than 1, apparent resistivities and zero-length dipoles are lost, the cell-centred formulation is not reciprocal (closest cell against interpolation), and an exception in dpred leaves the pole-pole survey in place. Proved for nodal simulations with Robin conditions, unit currents, voltages and distinct electrodes."
 },
 "C66": {
  "note": "Refuted in general: with more than one source at a frequency and a mapped permeability Jvec and Jtvec raise ValueError in the e and j formulations; in the h and j formulations with a mapped permeability the derivative of the source term of a magnetic dipole is left out; secondary h receivers have data but Jvec raises TypeError; receivers with component both/complex raise AttributeError; forward_only simulations have no Jvec; a survey with more frequencies raises IndexError on a used simulation; replacing the source list of a survey raises KeyError or gives zero data for new sources; Jvec and dpred with kept fields use the factorisation and source terms of the last model; getJtJdiag ignores weights after the first call; f[[s1, s2], 'b'] mixes sources in the e formulation. Proved otherwise: Maxwell equations and uniqueness, equality of formulations, symmetry, derivative, adjoint, getJ, JtJ diagonal and independence of history. Real arithmetic, complex numbers as pairs, exact solver; sources are RawVec and MagDipole in a uniform whole space (the other sources differ in how the primary vectors are computed); charge density, charge and current-loop primaries are not modelled."
 },
 "C67": {
  "note": "Refuted in general: Jvec leaves out the last time node (simulation.py 228-265); steps closer than dt_threshold (1e-8 s by default) are solved with a stale matrix; FormJ takes the change of the source over the wrong step (2549-2555); Jtvec of grounded wires is wrong for e unless the first two steps are equal, raises with one step, and forgets the initial condition for h and j; b and h receivers raise in FormE/FormJ; a dipole with initial fields ignores its waveform until the second time step's length has passed. Proved: unique discrete Maxwell evolution for all four formulations with steps that are equal or further apart than the threshold (for j with a source of steady rate), agreement b/e and h/j, charge balance of the initial fields, Jvec is the Jacobian when no receiver uses the last time, Jtvec is the exact adjoint of the Jacobian for all receivers when start_ok."
 },
 "C68": {
  "note": "Refuted in general: the choclo matrix-free diagonal uses the weight of the location index, so several components or several receiver objects with unequal weights give a wrong diagonal; choclo ignores a magnetization M set by the user; a negative inducing amplitude makes the two engines differ in tmi. Proved: order and contents of the matrices for any prior array contents, agreement of the engines (positive amplitude, default M, given that the two libraries give the same prism values), forward-only data = matrix times model, transpose and adjoint, diagonal for equal weights or a single receiver and component, active cells, refinement and uniform models, component relations. The closed forms of geoana and choclo are parameters."
 },
 "C69": {
  "note": "Refuted in general: the stored matrix survives a change of survey or magnetization; a file of the right shape is taken for the sensitivities and a shared file changes them; for amplitude data the unit vectors of the previous model are kept for a model np.allclose to it, for an array changed in place and after switching is_amplitude_data; getJtJdiag without weights raises IndexError for amplitudes; the diagonal misses mixed terms when a parameter feeds two cells. Proved: every history of queries with a fixed survey answers from scratch (amplitude models equal or not close), forward-only fields after any assignments, derivative and adjoint of components and amplitudes, refusals of geoana without stored sensitivities. Kernels and the property map are parameters."
 },
 "C70": {
  "note": "Refuted in general: deriv of the amplitude terms multiplies the derivative of the mapping by the model instead of the mapped model, so it is wrong for nonlinear mappings; weights of shape (nC, n_comp) are accepted but ignored by AmplitudeSmallness and raise in AmplitudeSmoothnessFirstOrder; with the default mapping a vector reference model is refused. Proved: value formulas for all other accepted weights, rotation invariance, gradient/second derivative for linear mappings; value, zero set, gradient (any differentiable mapping) and deriv2 of the cross reference term for all accepted weights. The smoothness theorems ask that no array size can be read both as cell and face weights."
 },
 "C71": {
  "note": "Refuted in general (data that are all zero come back as nan, or for gradients as their standard deviations; components other than gz/tmi are read back as gz/tmi; a cut gravity or magnetic file makes the reader loop for ever; writing a gradient file renames the components of the receivers in place, so a second write raises); proved: round trips of gz, tmi and any list of gradient components for data not all zero, rewriting gives the same file, blank lines do not matter, a cut gradient file is refused. Text is modelled as tokens except the gradient header; printing is an abstract rounding that keeps sign and zero."
 },
 "C72": {
  "note": "Refuted in general (dipoles whose ends differ by less than 1e-5 of the coordinates, for instance 5 m at 500 km, become poles); proved: the order is a permutation, one datum per row, the reported electrodes are those of the rows up to that merging, and tables are accepted exactly when different pairs (A, B) are a millimetre apart (otherwise an error). Exact reals."
 },
 "C73": {
  "note": "Refuted in general (values are taken from the reduced table by the column number of the file, so a file whose data column has another number than in the request gives another column; with one coordinate per electrode the columns are shifted by one; one-row files cannot be read); proved: round trip with the standard headers, and what is read when the numbers agree. Exact reals, printing is any function."
 },
 "C74": {
  "note": "Refuted in general (a reused directive keeps the regularization and misfit of the earlier inversion; a shared optimizer sends the end-of-iteration calls to the inversion made last; a shared directive acts on the later inversion; a second run keeps the first starting model as reference); proved: order and number of calls for any history when no later inversion took the optimizer, and objects seen when the directives were not shared or reused."
 },
 "C75": {
  "note": "Refuted in general (getJtJdiag returns its first answer for other weights; a receiver with several locations gets one number; complex receivers get none and make the Jacobian fail or repeat the row of the receiver before); proved: impedances solve Maxwell's equations, splitting layers, half-space values, data, Jvec, Jtvec and the diagonal for one-location non-complex receivers (the diagonal when no model entry feeds both properties), history independence of everything but the diagonal. Thicknesses broadcast from a single value not modelled."
 },
 "C76": {
  "note": "Refuted in general (the factor ignores the current of the source, so apparent-resistivity data are resistivity times current; it uses the surface formula for buried electrodes; it is not renewed when electrodes move; a negative factor near the stabiliser doubles the result; a pole source between its receiver electrodes has infinite pseudo-depth; on slopes the pseudo-location is displaced in the wrong direction; separations documented as horizontal are not); proved: separations, similarity, reciprocity, polarity, pole limit, own factors per pair, resistivity of homogeneous whole and half spaces for unit current, error bound with the stabiliser, derivative and adjoint, pseudo-locations on flat ground."
 },
 "C77": {
  "note": "Refuted in general (surplus thicknesses are silently ignored; receivers with two or three apparent resistivities cannot be simulated because the factors are broadcast over the wrong axis, and with as many data as filter radii the values are wrong; multipole sources are refused; Jvec/Jtvec raise when nothing is mapped; exchanging the survey leaves the old coefficients in use; exchanging the filter leaves the stored Jacobian); proved: the kernel is the solution of the layered equations, range, splitting, filter points, homogeneous ground for single-datum apparent resistivities and all voltages, Jacobian, adjoint, histories of calls for models told apart by allclose."
 },
 "C78": {
  "note": "Refuted in general (nonlinear mappings of the chargeability give data and Jvec that are not those of the chargeability; dpred with kept fields returns the last prediction or None; a new sigma is half used; getJtJdiag keeps the first weights; apparent chargeabilities of miniaturized surveys raise KeyError); proved for linear mappings: Seigel's definition, uniform ground, Jacobian, adjoint and independence of the history of calls. Three-dimensional simulations only."
 },
 "C79": {
  "note": "Refuted in general (a line whose sources share their A electrode in plan is lost; sources below each other share their data; dipoles across a line become poles; the origin is the A electrode of the lexicographically first pair, not of the first source); proved: lines and their data, each datum exactly once if and only if different pairs differ along the profile, electrodes in that case, distances."
 },
 "C80": {
  "note": "Refuted in general (the saved list of trade-off parameters is the one the schedule changes in place afterwards, so memory and file differ when saving comes first; a misfit with multiplier zero shifts values against targets; a zero coupling multiplier makes the last regularization the coupling term; chifact_target is ignored after its first use); proved for non-zero multipliers: pairing of schedule, rule and bounds, stopping, files, what memory holds."
 },
 "C81": {
  "note": "Refuted in general (once a pole source or receiver was read, all later ones are poles; mixed receivers of a source cannot be read; numpy.allclose takes dipoles for poles at large coordinates; pole receivers of 3D surface files lose a coordinate; writing predicted DC data overwrites the uncertainties); proved: round trips of 2D and 3D files for surveys of one kind whose dipoles can be told apart. The simple 2D format is not in this model."
 },
 "C82": {
  "note": "Refuted in general (data in the first column of a file come back as x coordinates; single-row simple files and writing without uncertainties raise); proved: the exact condition of acceptance of XYZ files, errors for missing headers, and the round trip of the simple format with two or more data."
 },
 "C83": {
  "note": "Refuted in general (with cells of different sizes a point gets the elevation of a neighbouring column; kept tables undo moves of sources; multipole sources lose electrodes; single points and integer indices raise); proved: the exact topography with the exact condition of its existence, on-surface for meshes with one horizontal cell size (points, heights, surveys), survey shape and tables for any mesh, and idempotence in three dimensions."
 },
 "C84": {
  "note": "Refuted in general (noiseless data share their array with the clean data; the reported deviation is that of the noisy datum; add_noise other than the object True is ignored; imaginary parts get no noise and are dropped by the base-class dpred); proved: noise formula, reported uncertainties, and value semantics of all programs that share no array."
 },
 "C85": {
  "note": "Refuted in general (the admittance is not H E^-1; 1D impedances ignore the magnetic locations; diagonal 1D/2D impedances have unusable derivatives); proved: impedance, tipper, conductivity and component formulas, exact derivatives and adjoints of every other receiver."
 },
 "C86": {
  "note": "Refuted in general (the misfit enters without its factor two and the multipliers of combinations are ignored, so the result is not the Jacobi preconditioner; stale when listed before the beta schedule; a Zero second derivative or a single non-combination regularization raises AttributeError; Update_Wj always raises AttributeError); proved: within a factor two of Jacobi at every solve when multipliers are one and the directive comes last, nonnegative always, sensitivities required."
 },
 "C87": {
  "note": "Refuted in general (nodal Robin simulations keep the product of boundary matrix and mapping derivative of the first model, so Jvec and Jtvec are wrong at later models of nonlinear mappings; cell-centred Neumann data are not those of the discrete equation; assigning bc_type keeps old boundary matrices); proved for new objects, and for any history of calls without such a product."
 },
 "C88": {
  "note": "Refuted in general (CurrentDensityMap with active cells closes every face between cells of different volume; HydraulicHeadMap has the opposite sign of its documentation; getJ without storeJ is that of the first model for nonlinear mappings; with storeJ Jvec ignores a new resistivity or mapping; products are not adjoint with Neumann conditions); proved for new objects, for histories of calls, and on meshes of equal volumes."
 },
 "C89": {
  "note": "Refuted in general (three-dimensional Jtvec reads its data receiver by receiver while predictions are time by time, so with several receivers and times it is not the adjoint; receivers with times of their own give Jvec of another length and a KeyError in Jtvec; three-dimensional stored J and getJtJdiag always fail with AttributeError; passed fields are ignored in favour of the last prediction; two-dimensional Jvec uses the chargeabilities of the last fields call; dc_voltage becomes one); proved for data, derivatives, the two-dimensional adjoint, one receiver or one time, and the order in which the adjoint holds."
 },
 "C90": {
  "note": "Refuted in general (one target given for several misfits makes zip ignore the others; exact evaluation of the smallness with TriggerSmall always fails because of a keyword the function has not; TriggerTheta fails with AttributeError for sums of regularizations and without a mixture; the normalization by weights never happens since ~ of a bool is never false; a schedule listed before the targets cannot be initialized; the tolerance is not used for cooling in the first mode); proved for stopping with a target for each misfit, histories of assignments, and the schedule."
 },
 "C91": {
  "note": "Refuted in general (a waveform that ends while on gets a dh/dt that is not the derivative of h, a sign in the sum is wrong and cancels only if the current begins and ends at zero; a waveform that is on from its first sample silently gives zero decay or fails; negative currents after the last positive one are ignored and a waveform without positive currents fails; the log-uniform field during a pulse is a constant, twice the difference of susceptibilities, though its rate is not zero); proved for pulses, sampled waveforms in the remaining cases and log-uniform rates."
 },
 "C92": {
  "note": "Refuted in general (a uniform model does not stay uniform: a local cell that is partly active gets the value times its active fraction, since the sum is divided by the whole volume. This is what keeps the integral, which the repository's test checks, but it is not an average over the active cells; tol is checked but never used); proved: integrals divided by whole volumes for any number of components, local active cells, conservation of the integral, range for wholly active cells, identity on the same mesh, linearity and exactly when a map is refused."
 },
 "C93": {
  "note": "Refuted in general (a jump of the current, as of a trapezoid whose ramp on has no length, is left out, so that a steady response stays after the current has returned to zero); proved for waveforms that are continuous at their nodes: the integral, causality, independence of added nodes, steady responses and trapezoids. Exactness of the quadrature between nodes is a hypothesis."
 },
 "C94": {
  "note": "Refuted in general (the directive looks for smoothness terms one level too high: the parts of a PGI are weighted least squares, so it never gives them the reference, and without PGI_UpdateParameters they use none; in a sum it gives the reference to the smoothness terms of other regularizations, which do not use it unless their own flag is on; without MultiTargetMisfits the first iteration fails. With PGI_UpdateParameters terms follow every later update, and its option keep_ref_fixed_in_Smooth is used nowhere); proved with PGI_UpdateParameters, before readiness, and for when an iteration is ready."
 }
}